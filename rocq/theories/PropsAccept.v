(** * PropsAccept: descriptions that keep the rules are accepted (C49), and exactly those (C50). *)
From Verif Require Import Base PyStr PyInt Types DimModel EnumModel ElemModel FinalModel ResolveModel ProcessModel SpecProcess SpecDim SpecElem SpecEnum SpecDevice SpecDeclared SpecExpand SpecAccept.
From Verif Require Import TextFacts DimFacts EnumFacts EffectFacts ResolveInv DescribeFacts ExpandInv BuildOk AcceptFacts FinalErr FuelFacts FinalAccept PropsDim PropsElem PropsDevice PropsExpand Samples.
From Coq Require Import ZifyBool ZifyNat ZifyN.

(** ** C49: the elements *)
Lemma not_contains s sub : (~ exists a b, s = (a ++ sub ++ b)%string) -> PyStr.contains sub s = false.
Proof. intros H. destruct (PyStr.contains sub s) eqn:E; [|reflexivity]. apply contains_spec in E. contradiction. Qed.
Lemma array_placeholder s : is_array s -> has_placeholder s.
Proof. intros (a & b & ->). exists (a ++ "[")%string, ("]" ++ b)%string. rewrite <- sapp_assoc. reflexivity. Qed.
Lemma merge_dim_none own : merge_dim own None = mk_idim (sd_dim own) (sd_inc own) (sd_index own).
Proof. unfold merge_dim; f_equal; apply own_or_none. Qed.
Lemma field_shift f k name m l : Bits f None m l -> exists ws g, process_field k name f None = (ws, Ok g).
Proof.
  intros H. apply (proj2 (C09_field_bits f None name m l)) in H as (ws & g & H & _). unfold process_field in *. apply bind_ok in H as (w1 & ml & w2 & H1 & _ & _). rewrite H1. cbn. eauto.
Qed.
Lemma create_all e : (forall k name d, exists ws v, create_element k name d e None = (ws, Ok v)) -> forall names k ds, ok (create_elements k names ds e None).
Proof.
  intros H. induction names as [|n names IH]; intros k ds; cbn [create_elements]; [apply ok_ret|]. apply ok_bind; [apply H|]. intros ws v _. apply ok_bind; [apply IH|]. intros. apply ok_ret.
Qed.
Lemma rules_local e : level_of e <> LEnum -> level_of e <> LDevice -> DimRules e -> (forall f, e = PaFld f -> FieldRules f) -> LocalOk e None.
Proof.
  intros He Hd HD HF.
  assert (HC : forall k name d, exists ws v, create_element k name d e None = (ws, Ok v)).
  { intros k name d. destruct e as [|p|[r|c l]|f|x]; cbn in He, Hd |- *; try congruence; try (eexists; eexists; reflexivity).
    destruct (HF f eq_refl) as (m & l & HB & _). destruct (field_shift f k name m l HB) as (ws & g & ->). cbn. eauto. }
  assert (HN : exists ws isd names displays, node_dimension e None = (ws, Ok (isd, names, displays)) /\ names <> []).
  { unfold node_dimension. cbn [option_map]. rewrite merge_dim_none. cbn [id_dim id_index].
    replace (or_if_none (parsed_display e) _) with (parsed_display e) by (destruct (parsed_display e), e as [|?|[?|? ?]|?|?]; reflexivity).
    unfold extract_dimension. destruct HD as [[H1 H2]|(n & Hn & Hpos & [(H1 & H2 & H3)|(H1 & H2 & H3 & H4 & l & H5 & H6)])].
    - rewrite (not_contains _ _ H1). assert (Hdisp : match parsed_display e with Some s => PyStr.contains "%s" s | None => false end = false).
      { destruct (parsed_display e) as [s|]; [|reflexivity]. now rewrite (not_contains _ _ (H2 s eq_refl)). }
      destruct (sd_dim (parsed_dim e)) as [d|].
      + unfold raise_if at 1. rewrite bind_ret_l. cbn [bind warn ret app]. rewrite Hdisp. cbn. eexists _, _, _, _. split; [reflexivity|discriminate].
      + unfold raise_if at 1. rewrite bind_ret_l. cbn [bind ret app]. rewrite Hdisp. cbn. eexists _, _, _, _. split; [reflexivity|discriminate].
    - rewrite Hn. rewrite (proj2 (contains_spec _ _) (array_placeholder _ H1)). unfold raise_if at 1. rewrite bind_ret_l. rewrite bind_ret_l.
      replace (match parsed_display e with Some _ | _ => false end) with false by (destruct (parsed_display e); reflexivity). unfold raise_if at 1. rewrite bind_ret_l.
      unfold process_dim. replace (n <? 1) with false by lia. unfold raise_if at 1. rewrite bind_ret_l. rewrite (proj2 (contains_spec _ _) H1).
      assert (HP : exists names displays, process_dim_array (parsed_name e) (parsed_display e) n = ([], Ok (names, displays)) /\ names <> []).
      { unfold process_dim_array. replace (match parsed_display e with Some d => _ | None => false end) with false.
        - cbn. eexists _, _. split; [reflexivity|]. intros K. apply map_eq_nil, map_eq_nil in K. assert (X : length (zrange 0 n) = 0%nat) by (rewrite K; reflexivity). rewrite zrange_length in X. lia.
        - destruct (parsed_display e) as [s|]; [|reflexivity]. destruct (H3 s eq_refl) as [K|K]; [rewrite (proj2 (contains_spec _ _) K); reflexivity|rewrite (not_contains _ _ K); now rewrite andb_false_r]. }
      destruct HP as (names & displays & HP & Hne). exists [], true, names, displays. split; [|exact Hne].
      destruct e as [|p|[r|c l]|f|x]; cbn in He, Hd, H2; try congruence; cbn [parsed_kind]; rewrite HP; reflexivity.
    - rewrite Hn. rewrite (proj2 (contains_spec _ _) H1). unfold raise_if at 1. rewrite bind_ret_l. rewrite bind_ret_l.
      replace (match parsed_display e with Some _ | _ => false end) with false by (destruct (parsed_display e); reflexivity). unfold raise_if at 1. rewrite bind_ret_l.
      unfold process_dim. replace (n <? 1) with false by lia. unfold raise_if at 1. rewrite bind_ret_l. rewrite (not_contains _ _ H2), (proj2 (contains_spec _ _) H1).
      assert (HP : exists names displays, process_dim_list (parsed_name e) (parsed_display e) n (sd_index (parsed_dim e)) = ([], Ok (names, displays)) /\ names <> []).
      { unfold process_dim_list. replace (match parsed_display e with Some d => _ | None => false end) with false.
        - unfold raise_if. rewrite bind_ret_l. rewrite (proj1 (C07_dim_index n _ l H5) Hpos H6). cbn. eexists _, _. split; [reflexivity|]. destruct l; [cbn in H6; lia|discriminate].
        - destruct (parsed_display e) as [s|]; [|reflexivity]. now rewrite (not_contains _ _ (H4 s eq_refl)). }
      destruct HP as (names & displays & HP & Hne). exists [], true, names, displays. split; [|exact Hne].
      destruct e as [|p|[r|c l']|f|x]; cbn in He, Hd, H3; try congruence; cbn [parsed_kind]; rewrite HP; reflexivity. }
  destruct HN as (ws & isd & names & displays & HN & Hne). destruct (create_all e HC names 0 displays) as (ws' & vs & HV). assert (HL := create_elements_length _ _ _ _ _ _ _ HV).
  destruct vs as [|v vs]; [destruct names; [congruence|discriminate]|]. exists ws, isd, names, displays, ws', v, vs. auto.
Qed.

(** *** Enumerated values *)
Definition hexb (c : ascii) : bool := match digit_val c with Some d => d <? 16 | None => false end.
Lemma hex_lower s : all_chars hex_char s -> sforallb (fun c => hexb c && negb (Ascii.eqb c c_us) && negb (Ascii.eqb c "#")) (lower s) = true.
Proof.
  induction s as [|c s IH]; [reflexivity|]. cbn [all_chars lower sforallb smap]. intros [Hc Hs]. unfold lower in *. cbn [smap sforallb]. rewrite (IH Hs), andb_true_r.
  unfold hex_char in Hc. cbn [In] in Hc. repeat (destruct Hc as [<-|Hc]; [reflexivity|]). destruct Hc.
Qed.

Lemma no_hash s : sforallb (fun c => negb (Ascii.eqb c "#")) s = true -> PyStr.contains "#" s = false.
Proof.
  intros H. apply not_contains. intros (a & b & ->). rewrite !sforallb_app in H. apply andb_prop in H as [_ H]. cbn in H. discriminate.
Qed.
Lemma hex_digits s : sforallb (fun c => hexb c && negb (Ascii.eqb c c_us) && negb (Ascii.eqb c "#")) s = true -> forall acc p, s <> "" \/ p = true -> exists v, digits_go 16 s acc p = Some v.
Proof.
  induction s as [|c s IH]; intros H acc p Hp; cbn [digits_go].
  - destruct Hp as [Hp|Hp]; [congruence|]. rewrite Hp. eauto.
  - cbn [sforallb] in H. apply andb_prop in H as [H Hs]. apply andb_prop in H as [H H2]. apply andb_prop in H as [H1 H3]. apply negb_true_iff in H3. rewrite H3. unfold hexb in H1. destruct (digit_val c) as [d|]; [|discriminate]. rewrite H1. apply IH; auto.
Qed.
Lemma value_text_ok t : ValueText t -> ok (convert_enumerated_value t).
Proof.
  intros [s Hs|p s Hp Hne Hs|p s Hp Hw].
  - assert (Hl : lower s = s). { destruct Hs as [_ Hs]. induction s as [|c s IH]; [reflexivity|]. cbn in Hs. apply andb_prop in Hs as [Hc Hs]. unfold lower in *. cbn. rewrite (IH Hs). f_equal. unfold lower_char.
      destruct (is_upper c) eqn:Eu; [apply upper_not_digit in Eu; congruence|reflexivity]. }
    unfold convert_enumerated_value. rewrite Hl. rewrite replace_none by (apply no_hash; destruct Hs as [_ Hs]; apply (sforallb_impl is_digit); [intros c Hc; destruct (Ascii.eqb c "#") eqn:E; [apply Ascii.eqb_eq in E; subst; discriminate|reflexivity]|exact Hs]).
    assert (Hd : forall c r, In c ["b"; "x"]%char -> s <> ("0" ++ String c r)%string). { intros c r Hc ->. destruct Hs as [_ Hs]. cbn in Hs. destruct Hc as [<-|[<-|[]]]; discriminate. }
    assert (H1 : startswith "0b" s = false). { destruct (startswith "0b" s) eqn:E; [|reflexivity]. apply startswith_spec in E as (r & E). destruct (Hd "b"%char r); [now left|exact E]. }
    assert (H2 : startswith "0x" s = false). { destruct (startswith "0x" s) eqn:E; [|reflexivity]. apply startswith_spec in E as (r & E). destruct (Hd "x"%char r); [right; now left|exact E]. }
    rewrite H1, H2. assert (H3 : isdigit s = true). { unfold isdigit. destruct Hs as [Hne Hs]. destruct s; [congruence|exact Hs]. } rewrite H3, (py_int_dec _ Hs). eexists; eexists; reflexivity.
  - assert (Hx := hex_lower s Hs). assert (Hl : lower (p ++ s) = ("0x" ++ lower s)%string) by (rewrite lower_app; destruct Hp as [-> | ->]; reflexivity).
    unfold convert_enumerated_value. rewrite Hl. rewrite replace_none by (apply no_hash; cbn; apply (sforallb_impl (fun c => hexb c && negb (Ascii.eqb c c_us) && negb (Ascii.eqb c "#"))); [intros c Hc; apply andb_prop in Hc as [_ Hc]; exact Hc|exact Hx]).
    change (startswith "0b" ("0x" ++ lower s)) with false. change (startswith "0x" ("0x" ++ lower s)) with true. cbn iota.
    assert (Hi : exists v, py_int 16 ("0x" ++ lower s) = Some v).
    { unfold py_int. rewrite strip_none.
      - change (split_sign ("0x" ++ lower s)) with (false, ("0x" ++ lower s)%string). cbn iota. change (16 =? 0) with false. cbn iota.
        assert (Hu : forall u r, lower s = String u r -> Ascii.eqb u c_us = false). { intros u r E. rewrite E in Hx. cbn in Hx. apply andb_prop in Hx as [Hx _]. apply andb_prop in Hx as [Hx _]. apply andb_prop in Hx as [_ Hx]. now apply negb_true_iff in Hx. }
        assert (Hp' : strip_prefix 16 ("0x" ++ lower s) = lower s) by (destruct (lower s) as [|u r] eqn:E; [reflexivity|]; cbn; rewrite (Hu u r eq_refl); reflexivity). rewrite Hp'.
        destruct (hex_digits (lower s) Hx 0 false) as (v & ->); [left; destruct s; [congruence|discriminate]|]. cbn. eauto.
      - cbn. apply (sforallb_impl (fun c => hexb c && negb (Ascii.eqb c c_us) && negb (Ascii.eqb c "#"))); [|exact Hx]. intros c Hc. apply andb_prop in Hc as [Hc _]. apply andb_prop in Hc as [Hc _]. unfold hexb, digit_val in Hc.
        destruct (is_cspace c) eqn:E; [|reflexivity]. unfold is_cspace in E. destruct (is_digit c) eqn:E1, (is_lower c) eqn:E2, (is_upper c) eqn:E3; unfold is_digit, is_lower, is_upper, in_code_range in *; lia. }
    destruct Hi as (v & ->). eexists; eexists; reflexivity.
  - rewrite (convert_wild p s Hp Hw). apply ok_ret.
Qed.
Lemma ok_wildcard v : (no_text (sev_value v) \/ exists t, sev_value v = Some t /\ ValueText t) -> ok (resolve_wildcard v).
Proof.
  intros H. unfold resolve_wildcard. apply ok_bind.
  - destruct (sev_value v) as [[|c t]|] eqn:E; try apply ok_ret. apply ok_bind; [|intros; apply ok_ret]. apply value_text_ok. destruct H as [[H|H]|(t' & H & K)]; try discriminate. injection H as <-. exact K.
  - intros ws vs _. apply ok_bind; [|intros; apply ok_ret]. apply ok_mapM. intros x _. destruct (String.eqb _ _); [eexists; eexists; reflexivity|apply ok_ret].
Qed.
Lemma wildcard_default v ws us : resolve_wildcard v = (ws, Ok us) -> (forall u, In u us -> iev_default u = default false (sev_default v)) /\ (no_text (sev_value v) -> (length us <= 1)%nat).
Proof.
  unfold resolve_wildcard. intros H. apply bind_ok in H as (w1 & vals & w2 & H1 & H & _). apply bind_ok in H as (w3 & ls & w4 & H2 & H & _). apply ret_ok in H as [<- _]. apply mapM_ok_Forall2 in H2. split.
  - intros u Hu. apply in_concat in Hu as (l & Hl & Hu). clear H1. induction H2 as [|x l' xs ls (w & Hx) F IH]; [destruct Hl|]. destruct Hl as [<-|Hl]; [|now apply IH].
    destruct (String.eqb _ _); [apply bind_ok in Hx as (? & ? & ? & _ & Hx & _); apply ret_ok in Hx as [<- _]; destruct Hu|]. apply ret_ok in Hx as [<- _]. destruct Hu as [<-|[]]. reflexivity.
  - intros Hn. assert (Hv : vals = [None]) by (destruct Hn as [E|E]; rewrite E in H1; apply ret_ok in H1 as [<- _]; reflexivity). subst vals. inversion H2 as [|x l' xs ls' (w & Hx) F]; subst. inversion F; subst. cbn. rewrite app_nil_r.
    destruct (String.eqb _ _); [apply bind_ok in Hx as (? & ? & ? & _ & Hx & _)|]; apply ret_ok in Hx as [<- _]; cbn; lia.
Qed.
Lemma valid_plain st u : iev_default u = false \/ vl_default st = None -> ok (is_value_valid st u) /\ forall ws p, is_value_valid st u = (ws, Ok p) -> iev_default u = false -> vl_default (fst p) = vl_default st.
Proof.
  intros H. unfold is_value_valid. destruct (mem_str _ _); [split; [eexists; eexists; reflexivity|]; intros ws p E _; injection E as _ <-; reflexivity|].
  destruct (has_value _ _); [split; [eexists; eexists; reflexivity|]; intros ws p E _; injection E as _ <-; reflexivity|]. split.
  - destruct (iev_default u).
    + apply ok_bind; [|intros; apply ok_ret]. apply ok_bind; [destruct (iev_value u); eexists; eexists; reflexivity|]. intros _ _ _. apply ok_bind; [|intros; apply ok_ret]. apply ok_raise_if. destruct H as [H|H]; [discriminate|rewrite H; reflexivity].
    + apply ok_bind; [apply ok_ret|]. intros. apply ok_ret.
  - intros ws p E K. rewrite K in E. apply bind_ok in E as (? & v' & ? & _ & E & _). apply ret_ok in E as [<- _]. reflexivity.
Qed.
Lemma validate_plain l : forall st, (forall u, In u l -> iev_default u = false) -> ok (validate_all st l) /\ forall ws p, validate_all st l = (ws, Ok p) -> vl_default (fst p) = vl_default st.
Proof.
  induction l as [|u l IH]; intros st H; cbn [validate_all]; [split; [apply ok_ret|]; intros ws p E; apply ret_ok in E as [<- _]; reflexivity|].
  assert (Hu := H u (or_introl eq_refl)). destruct (valid_plain st u (or_introl Hu)) as [V1 V2]. assert (Hl : forall u, In u l -> iev_default u = false) by (intros; apply H; now right). split.
  - apply ok_bind; [exact V1|]. intros ws r _. apply ok_bind; [apply IH; exact Hl|]. intros. apply ok_ret.
  - intros ws p E. apply bind_ok in E as (w1 & r & w2 & E1 & E & _). apply bind_ok in E as (w3 & q & w4 & E2 & E & _). apply ret_ok in E as [<- _]. cbn [fst]. rewrite (proj2 (IH (fst r) Hl) _ _ E2). exact (V2 _ _ E1 Hu).
Qed.
Lemma loop_plain ps : forall st, (forall v, In v ps -> no_text (sev_value v) \/ exists t, sev_value v = Some t /\ ValueText t) -> (forall v, In v ps -> sev_default v <> Some true) ->
  ok (process_evs_loop st ps) /\ forall ws p, process_evs_loop st ps = (ws, Ok p) -> vl_default (fst p) = vl_default st.
Proof.
  induction ps as [|v ps IH]; intros st HV HD; cbn [process_evs_loop]; [split; [apply ok_ret|]; intros ws p E; apply ret_ok in E as [<- _]; reflexivity|].
  assert (Hv : default false (sev_default v) = false) by (assert (K := HD v (or_introl eq_refl)); destruct (sev_default v) as [[]|]; [congruence|reflexivity..]).
  assert (HV' : forall v, In v ps -> no_text (sev_value v) \/ exists t, sev_value v = Some t /\ ValueText t) by (intros; apply HV; now right). assert (HD' : forall v, In v ps -> sev_default v <> Some true) by (intros; apply HD; now right). split.
  - apply ok_bind; [apply ok_wildcard, HV; now left|]. intros ws us E. destruct (wildcard_default _ _ _ E) as [K _]. apply ok_bind; [apply validate_plain; intros u Hu; rewrite (K u Hu); exact Hv|]. intros ws' r _. apply ok_bind; [apply IH; auto|]. intros. apply ok_ret.
  - intros ws p E. apply bind_ok in E as (w1 & us & w2 & E1 & E & _). apply bind_ok in E as (w3 & r & w4 & E2 & E & _). apply bind_ok in E as (w5 & q & w6 & E3 & E & _). apply ret_ok in E as [<- _]. cbn [fst].
    destruct (wildcard_default _ _ _ E1) as [K _]. rewrite (proj2 (IH (fst r) HV' HD') _ _ E3). apply (proj2 (validate_plain us st (fun u Hu => eq_trans (K u Hu) Hv)) _ _ E2).
Qed.
Lemma loop_one d l2 l1 : forall st, vl_default st = None -> (forall v, In v (l1 ++ d :: l2) -> no_text (sev_value v) \/ exists t, sev_value v = Some t /\ ValueText t) ->
  (forall v, In v (l1 ++ l2) -> sev_default v <> Some true) -> no_text (sev_value d) -> ok (process_evs_loop st (l1 ++ d :: l2)).
Proof.
  induction l1 as [|v l1 IH]; intros st Hst HV HD Hd; cbn [app process_evs_loop].
  - apply ok_bind; [apply ok_wildcard; now left|]. intros ws us E. destruct (wildcard_default _ _ _ E) as [_ K]. specialize (K Hd). apply ok_bind.
    + destruct us as [|u [|]]; [apply ok_ret| |cbn in K; lia]. cbn [validate_all]. apply ok_bind; [apply valid_plain; now right|]. intros. apply ok_bind; [apply ok_ret|]. intros. apply ok_ret.
    + intros ws' r _. apply ok_bind; [|intros; apply ok_ret]. apply loop_plain; [intros v Hv; apply HV; now right|exact HD].
  - assert (Hv : default false (sev_default v) = false) by (assert (K := HD v (or_introl eq_refl)); destruct (sev_default v) as [[]|]; [congruence|reflexivity..]).
    apply ok_bind; [apply ok_wildcard, HV; now left|]. intros ws us E. destruct (wildcard_default _ _ _ E) as [K _]. destruct (validate_plain us st (fun u Hu => eq_trans (K u Hu) Hv)) as [V1 V2]. apply ok_bind; [exact V1|]. intros ws' r E2.
    apply ok_bind; [|intros; apply ok_ret]. apply IH; auto; [rewrite (V2 _ _ E2); exact Hst|intros; apply HV; now right|intros; apply HD; now right].
Qed.
Lemma container_ok c lsb msb : ContainerRules (msb - lsb + 1) c -> exists w r, create_evc c lsb msb = (w, Ok r) /\ ievc_usage r = default U_READ_WRITE (sevc_usage c).
Proof.
  intros [HV HD]. assert (X : ok (create_evc c lsb msb)).
  { unfold create_evc, process_enumerated_values. apply ok_bind; [|intros; apply ok_ret]. destruct HD as [HD|(Hw & l1 & d & l2 & E & Hd & HD)].
    - destruct (loop_plain (sevc_evs c) validator_init HV HD) as [K1 K2]. apply ok_bind; [exact K1|]. intros ws r E. rewrite (K2 _ _ E). cbn. eexists; eexists; reflexivity.
    - apply ok_bind; [rewrite E in *; apply loop_one; auto|]. intros ws r _. apply ok_bind; [|intros; apply ok_ret]. destruct (vl_default (fst r)); [|apply ok_ret]. unfold extend_with_default. apply ok_bind; [apply ok_raise_if; lia|]. intros. apply ok_ret. }
  destruct X as (w & r & X). exists w, r. split; [exact X|]. unfold create_evc in X. apply bind_ok in X as (? & vs & ? & _ & X & _). apply ret_ok in X as [<- _]. reflexivity.
Qed.
Lemma containers_ok cs lsb msb : (forall c, In c cs -> ContainerRules (msb - lsb + 1) c) -> exists ics, Forall2 (fun e c => exists w, create_evc e lsb msb = (w, Ok c)) cs ics /\ map ievc_usage ics = map (fun c => default U_READ_WRITE (sevc_usage c)) cs.
Proof.
  induction cs as [|c cs IH]; intros H; [exists []; split; constructor|]. destruct IH as (ics & F & E); [intros; apply H; now right|]. destruct (container_ok c lsb msb (H c (or_introl eq_refl))) as (w & r & K1 & K2).
  exists (r :: ics). split; [constructor; eauto|]. cbn. now rewrite K2, E.
Qed.
Lemma bits_unique f m l m' l' : Bits f None m l -> Bits f None m' l' -> m = m' /\ l = l'.
Proof.
  intros H1 H2. apply (proj2 (C09_field_bits f None "" m l)) in H1 as (ws & g & H1 & <- & <-). apply (proj2 (C09_field_bits f None "" m' l')) in H2 as (ws' & g' & H2 & <- & <-). rewrite H1 in H2. injection H2 as _ <-. auto.
Qed.
Lemma described_width f vs tv v : Described (PaFld f) None vs tv -> In (PrFld v) vs -> exists m l, Bits f None m l /\ fb_msb (if_b v) - fb_lsb (if_b v) = m - l.
Proof.
  intros D H. assert (HP : exists k, Placed (PaFld f) None k (PrFld v)).
  { destruct D as [v0 _ _ HP _ _ _ _|vs tv n idx ph _ _ _ _ _ Hn _ _ _ _ _]; [destruct H as [<-|[]]; eauto|]. apply In_nth_error in H as (k & H). destruct (Hn k _ H) as (ix & _ & _ & HP & _). eauto. }
  destruct HP as (k & m & l & HB & E1 & E2). exists m, l. split; [exact HB|]. lia.
Qed.
Lemma rules_evcs f vs tv v : FieldRules f -> Described (PaFld f) None vs tv -> In (PrFld v) vs -> EvcsOk (sf_evcs f) (fb_lsb (if_b v)) (fb_msb (if_b v)).
Proof.
  intros (m & l & HB & HU & HC) D Hin. destruct (described_width f vs tv v D Hin) as (m' & l' & HB' & E). destruct (bits_unique _ _ _ _ _ HB HB') as [<- <-].
  destruct (containers_ok (sf_evcs f) (fb_lsb (if_b v)) (fb_msb (if_b v))) as (ics & F & Eu). { intros c Hc. replace (fb_msb (if_b v) - fb_lsb (if_b v) + 1) with (m - l + 1) by lia. now apply HC. }
  exists ics. split; [exact F|]. rewrite Eu. destruct HU as [HU|[HU|HU]].
  - destruct (sf_evcs f) as [|c [|c' cs]]; cbn in HU |- *; [now left|right; left; eauto|lia].
  - destruct (sf_evcs f) as [|c [|c' [|c2 cs]]]; try discriminate. cbn in HU |- *. injection HU as -> ->. right. right. now left.
  - destruct (sf_evcs f) as [|c [|c' [|c2 cs]]]; try discriminate. cbn in HU |- *. injection HU as -> ->. right. right. now right.
Qed.
Lemma per_local p bv : ~ has_placeholder (sp_name p) \/ is_array (sp_name p) /\ (exists n, eff_dim (PaPer p) bv = Some n /\ 1 <= n) -> LocalOk (PaPer p) bv.
Proof.
  intros H. assert (HC : forall names k ds, ok (create_elements k names ds (PaPer p) bv)).
  { induction names as [|n names IH]; intros k ds; cbn [create_elements]; [apply ok_ret|]. apply ok_bind; [cbn; apply ok_ret|]. intros ws v _. apply ok_bind; [apply IH|]. intros. apply ok_ret. }
  assert (HN : exists ws isd names displays, node_dimension (PaPer p) bv = (ws, Ok (isd, names, displays)) /\ names <> []).
  { unfold node_dimension. cbn [parsed_display or_if_none parsed_name parsed_kind]. rewrite dim_from. unfold dim_of_base. cbn [id_dim id_index]. unfold extract_dimension. destruct H as [H|(H & n & Hn & Hpos)].
    - rewrite (not_contains _ _ H). destruct (eff_dim (PaPer p) bv) as [d|].
      + unfold raise_if at 1. rewrite bind_ret_l. cbn. eexists _, _, _, _. split; [reflexivity|discriminate].
      + unfold raise_if at 1. rewrite bind_ret_l. cbn. eexists _, _, _, _. split; [reflexivity|discriminate].
    - rewrite Hn. rewrite (proj2 (contains_spec _ _) (array_placeholder _ H)). unfold raise_if at 1. rewrite !bind_ret_l. unfold raise_if at 1. rewrite bind_ret_l.
      unfold process_dim. replace (n <? 1) with false by lia. unfold raise_if at 1. rewrite bind_ret_l, (proj2 (contains_spec _ _) H). unfold process_dim_array. unfold raise_if. rewrite bind_ret_l. cbn. eexists _, _, _, _. split; [reflexivity|].
      intros K. apply map_eq_nil, map_eq_nil in K. assert (X : length (zrange 0 n) = 0%nat) by (rewrite K; reflexivity). rewrite zrange_length in X. lia. }
  destruct HN as (ws & isd & names & displays & HN & Hne). destruct (HC names 0 displays) as (ws' & vs & HV). assert (HL := create_elements_length _ _ _ _ _ _ _ HV).
  destruct vs as [|v vs]; [destruct names; [congruence|discriminate]|]. exists ws, isd, names, displays, ws', v, vs. auto.
Qed.

(** *** C52: descriptions in which only peripherals are derived *)
Lemma rules_no_clusters d : DerivedRules (sdv_periphs d) -> plain_bases d.
Proof. intros (_ & _ & _ & H). apply no_derived_clusters_plain. intros p c l Hp Hc. apply (H (PaRc (SClu c l))); [exists p; auto|discriminate]. Qed.
(** A description that keeps the rules is resolved: every base is found and processed before the peripherals derived from it, and neither the
    resolution of dim nor the expansion of the enumerated values nor the determination of the sizes fails. *)
Theorem C52_resolved : forall d, DerivedRules (sdv_periphs d) ->
  exists ws i, Resolves d ws i /\ idv_b i = process_device_base d /\ Expansion (sdv_periphs d) (idv_periphs i).
Proof.
  intros d HR. assert (HR' := HR). destruct HR' as (Hne & HP & HZ & HE).
  destruct (accepted (sdv_periphs d) Hne) as (fuel & ws & l & E).
  - intros e He Hl. apply (HE e He Hl).
  - intros p Hp. apply (HP p Hp).
  - intros e He Hl Hx. destruct (HE e He Hl) as (_ & K1 & K2). assert (Hn : level_of e <> LEnum) by (destruct e as [|?|[?|? ?]|?|?]; cbn in Hx; try discriminate; tauto).
    apply rules_local; auto; destruct e as [|?|[?|? ?]|?|?]; cbn in Hx, He |- *; try discriminate; try tauto.
  - intros p bv Hp Hbv. destruct (HP p Hp) as (_ & [K|(K1 & n & K2 & K3)]); apply per_local; [now left|right]. split; [exact K1|]. exists n. split; [now apply Hbv|exact K3].
  - exact HZ.
  - intros f vs tv v Hf D Hin. destruct (HE _ Hf) as (_ & _ & K); [discriminate|]. eapply rules_evcs; eauto.
  - assert (R : Resolves d ws (mk_idev (process_device_base d) l)) by (exists fuel, l; auto). exists ws, (mk_idev (process_device_base d) l). split; [exact R|]. exact (resolves_expansion d ws _ (rules_no_clusters d HR) R).
Qed.
Lemma und_of d : no_derivation d -> forall e, Declared (sdv_periphs d) e -> derived_of e = None.
Proof. intros (N1 & N2 & N3 & N4 & N5) e He. destruct e as [|p|[r|c ch]|f|e]; cbn in *; auto; destruct He as (p & Hp & Hx); eauto. Qed.
Lemma plain_derived d : no_derivation d -> ElementRules (sdv_periphs d) -> DerivedRules (sdv_periphs d).
Proof.
  intros N (Hne & HR). split; [exact Hne|]. split; [|split].
  - intros p Hp. split; [apply Gr_own; exact (und_of d N (PaPer p) Hp)|]. destruct (HR (PaPer p) Hp) as (K & _); [discriminate|]. destruct K as [[K _]|(n & K1 & K2 & [(K3 & _)|(_ & _ & K3 & _)])]; [now left| |now destruct K3]. right. split; [exact K3|]. exists n. split; [now apply DV_own|exact K2].
  - intros e s He Hs. destruct (HR e He) as (_ & K & _); [destruct e as [|?|[?|? ?]|?|?]; discriminate|]. exact (K s Hs).
  - intros e He _. split; [exact (und_of d N e He)|]. split; [intros Hl; apply (HR e He Hl)|]. intros f ->. destruct (HR _ He) as (_ & _ & K); [discriminate|]. now apply K.
Qed.

(** *** C49 *)
(** A description without derivedFrom whose elements keep the rules is expanded: the resolution of dim, the expansion of the enumerated values
    and the determination of the sizes do not fail. *)
Theorem C49_resolved : forall d, no_derivation d -> ElementRules (sdv_periphs d) ->
  exists ws i, Resolves d ws i /\ idv_b i = process_device_base d /\ PlainExpansion (sdv_periphs d) (idv_periphs i).
Proof.
  intros d N HR. destruct (C52_resolved d (plain_derived d N HR)) as (ws & i & R & Eb & X). exists ws, i. split; [exact R|]. split; [exact Eb|]. apply plain_expansion; [exact (und_of d N)|exact X].
Qed.

(** ** C50: the finalisation accepts exactly the devices that keep the rules of [Acceptable] *)
Lemma resolves_process d w i : Resolves d w i -> exists fuel, process_device fuel d = (w ++ fst (finalize (inherit_properties i)), snd (finalize (inherit_properties i))).
Proof.
  intros (fuel & ps & H & ->). exists fuel. unfold process_device. unfold bind. rewrite H. cbn [wrap]. destruct (finalize _) as [w2 [dev|e]]; reflexivity.
Qed.
Theorem C50_accepted_iff : forall d w i, Resolves d w i -> ((exists ws dev, Processes d ws dev) <-> Acceptable i).
Proof.
  intros d w i R. rewrite <- finalize_iff. destruct (resolves_process d w i R) as (fuel & E). split.
  - intros (ws & dev & P). destruct (finalize (inherit_properties i)) as [w2 [dev'|e]] eqn:EF; [eexists; eexists; reflexivity|]. exfalso. cbn [fst snd] in E.
    apply (Processes_not_Rejects d ws dev e P). exists fuel, (w ++ w2). split; [exact E|]. destruct (fe_finalize i) as [_ K]. rewrite EF in K. cbn in K. destruct K as [-> | ->]; discriminate.
  - intros (w2 & dev & EF). rewrite EF in E. exists (w ++ w2), dev, fuel. exact E.
Qed.
(** ... and everything else is reported as an error *)
Theorem C50_rejected_iff : forall d w i, Resolves d w i -> ((exists e, Rejects d e /\ (ex_class e = ProcessException \/ ex_class e = KeyError)) <-> ~ Acceptable i).
Proof.
  intros d w i R. split.
  - intros (e & HR & _) HA. apply (C50_accepted_iff d w i R) in HA as (ws & dev & P). exact (Processes_not_Rejects d ws dev e P HR).
  - intros HN. rewrite <- finalize_iff in HN. destruct (resolves_process d w i R) as (fuel & E). destruct (finalize (inherit_properties i)) as [w2 [dev'|e]] eqn:EF; [destruct HN; eexists; eexists; reflexivity|].
    cbn [fst snd] in E. destruct (fe_finalize i) as [_ K]. rewrite EF in K. cbn in K. exists e. split; [|exact K]. exists fuel, (w ++ w2). split; [exact E|]. destruct K as [-> | ->]; discriminate.
Qed.
(** Both together: what Process does with a description without derivedFrom whose elements keep the rules. *)
Theorem C49_accepted_iff : forall d, no_derivation d -> ElementRules (sdv_periphs d) ->
  exists i, idv_b i = process_device_base d /\ PlainExpansion (sdv_periphs d) (idv_periphs i) /\
    ((exists ws dev, Processes d ws dev) <-> Acceptable i) /\ ((exists e, Rejects d e) <-> ~ Acceptable i).
Proof.
  intros d N HR. destruct (C49_resolved d N HR) as (ws & i & R & Eb & PE). exists i. split; [exact Eb|]. split; [exact PE|]. split; [exact (C50_accepted_iff d ws i R)|].
  split; [|intros H; apply (C50_rejected_iff d ws i R) in H as (e & H & _); eauto].
  intros (e & H) HA. apply (C50_accepted_iff d ws i R) in HA as (w2 & dev & P). exact (Processes_not_Rejects d w2 dev e P H).
Qed.

(** The same for a description in which peripherals are derived. *)
Theorem C52_accepted_iff : forall d, DerivedRules (sdv_periphs d) ->
  exists i, idv_b i = process_device_base d /\ Expansion (sdv_periphs d) (idv_periphs i) /\
    ((exists ws dev, Processes d ws dev) <-> Acceptable i) /\ ((exists e, Rejects d e) <-> ~ Acceptable i).
Proof.
  intros d HR. destruct (C52_resolved d HR) as (ws & i & R & Eb & PE). exists i. split; [exact Eb|]. split; [exact PE|]. split; [exact (C50_accepted_iff d ws i R)|].
  split; [|intros H; apply (C50_rejected_iff d ws i R) in H as (e & H & _); eauto].
  intros (e & H) HA. apply (C50_accepted_iff d ws i R) in HA as (w2 & dev & P). exact (Processes_not_Rejects d w2 dev e P H).
Qed.

(** *** Examples *)
Lemma no_placeholder_dec s : contains "%s" s = false -> ~ has_placeholder s.
Proof. intros H (a & b & E). assert (K : contains "%s" s = true) by (apply contains_spec; eauto). congruence. Qed.
Lemma no_array_dec s : contains "[%s]" s = false -> ~ is_array s.
Proof. intros H (a & b & E). assert (K : contains "[%s]" s = true) by (apply contains_spec; eauto). congruence. Qed.
(** an array of peripherals with an array of clusters with a list of registers, one of their fields with enumerated values and a default *)
Definition rule_sample_with (lsb : Z) : svd_device :=
  s_dev [ s_per_dim (dims 2 4096) noprops "P[%s]" 4096
            [ SClu (mk_sclu (dims 2 32) noprops "C[%s]" None None None 16 None)
                [ s_reg_dim (dims 2 4) noprops "R%s" 0
                    [ s_field "F" (Some 0) (Some 3) None [s_evc None [s_ev "a" "1"; s_ev "b" "0x1F"; s_ev "c" "#1x0"; mk_sev "rest" None None (Some true)] None] None;
                      s_field "G" (Some lsb) (Some 7) None [] None ] None None ];
              s_reg_dim nodim (sized 64) "Q" 0 [] None None ] None None ].
Definition rule_sample := rule_sample_with 4.
Lemma rule_sample_rules lsb : no_derivation (rule_sample_with lsb) /\ ElementRules (sdv_periphs (rule_sample_with lsb)).
Proof.
  assert (HA : forall p x, In p (sdv_periphs (rule_sample_with lsb)) -> DeclaredRc (sp_rcs p) x -> In x (all_of (rule_sample_with lsb))) by (intros; eapply declared_of; eassumption).
  assert (HF : forall f, DeclaredField (sdv_periphs (rule_sample_with lsb)) f -> f = s_field "F" (Some 0) (Some 3) None [s_evc None [s_ev "a" "1"; s_ev "b" "0x1F"; s_ev "c" "#1x0"; mk_sev "rest" None None (Some true)] None] None \/ f = s_field "G" (Some lsb) (Some 7) None [] None).
  { intros f (p & r & Hp & Hr & Hf). specialize (HA _ _ Hp Hr). cbn in HA. repeat (destruct HA as [HA|HA]; [try discriminate HA; injection HA as <-; cbn in Hf; intuition congruence|]). destruct HA. }
  split.
  - split; [intros p [<-|[]]; reflexivity|]. split; [now apply no_derived_clusters_dec|]. split; [|split].
    + intros p r Hp Hr. specialize (HA _ _ Hp Hr). cbn in HA. repeat (destruct HA as [HA|HA]; [try discriminate HA; injection HA as <-; reflexivity|]). destruct HA.
    + intros f Hf. destruct (HF f Hf) as [-> | ->]; reflexivity.
    + intros e (f & Hf & He). destruct (HF f Hf) as [-> | ->]; cbn in He; [destruct He as [<-|[]]; reflexivity|destruct He].
  - split; [discriminate|]. intros e He Hl. destruct e as [|p|x|f|v]; [destruct He| | | |now destruct Hl].
    + cbn in He. destruct He as [<-|[]]. split; [|split; [intros s K; discriminate|discriminate]]. right. exists 2. split; [reflexivity|]. split; [lia|]. left. split; [exists "P", ""; reflexivity|]. split; [discriminate|intros s K; discriminate].
    + destruct He as (p & Hp & Hx). specialize (HA _ _ Hp Hx). cbn in HA. destruct HA as [<-|[<-|[<-|[]]]].
      * split; [|split; [intros s K; discriminate|discriminate]]. right. exists 2. split; [reflexivity|]. split; [lia|]. left. split; [exists "C", ""; reflexivity|]. split; [discriminate|intros s K; discriminate].
      * split; [|split; [intros s K; discriminate|discriminate]]. right. exists 2. split; [reflexivity|]. split; [lia|]. right. split; [exists "R", ""; reflexivity|]. split; [apply no_array_dec; reflexivity|]. split; [discriminate|]. split; [intros s K; discriminate|]. eexists. split; [apply Ix_none|reflexivity].
      * split; [|split; [intros s K; injection K as <-; lia|discriminate]]. left. split; [apply no_placeholder_dec; reflexivity|intros s K; discriminate].
    + destruct (HF f He) as [-> | ->]; (split; [left; split; [apply no_placeholder_dec; reflexivity|intros s K; discriminate]|]; split; [intros s K; discriminate|]); intros f E; injection E as <-.
      * exists 3, 0. split; [apply Bits_pair; [reflexivity|split; [left; discriminate|split; reflexivity]]|]. split; [left; cbn; lia|]. intros c [<-|[]]. split.
        -- intros v Hv. cbn in Hv. destruct Hv as [<-|[<-|[<-|[<-|[]]]]].
           ++ right. exists "1". split; [reflexivity|]. apply VT_dec. split; [discriminate|reflexivity].
           ++ right. exists "0x1F". split; [reflexivity|]. apply (VT_hex "0x" "1F"); [now left|discriminate|]. repeat constructor; unfold hex_char; cbn; tauto.
           ++ right. exists "#1x0". split; [reflexivity|]. apply (VT_bin "#" "1x0"); [unfold bin_prefix; cbn; tauto|]. split; [discriminate|]. repeat constructor; unfold wild_char; cbn; tauto.
           ++ left. now left.
        -- right. split; [lia|]. exists [s_ev "a" "1"; s_ev "b" "0x1F"; s_ev "c" "#1x0"], (mk_sev "rest" None None (Some true)), []. split; [reflexivity|]. split; [now left|]. intros v Hv. cbn in Hv. destruct Hv as [<-|[<-|[<-|[]]]]; discriminate.
      * exists 7, lsb. split; [apply Bits_pair; [reflexivity|split; [left; discriminate|split; reflexivity]]|]. split; [left; cbn; lia|]. intros c [].
Qed.
(** accepted as it is; rejected (fields overlap) when the second field starts one bit earlier *)
Definition rule_result := process_device 20 rule_sample.
Example C49_nonvacuous : no_derivation rule_sample /\ ElementRules (sdv_periphs rule_sample) /\ Processes rule_sample (fst rule_result) (the_device rule_result) /\
  outline (the_device rule_result) =
    [("P0", [("Q", 4096); ("R0", 4112); ("R1", 4116); ("R0", 4144); ("R1", 4148)]); ("P1", [("Q", 8192); ("R0", 8208); ("R1", 8212); ("R0", 8240); ("R1", 8244)])] /\
  no_derivation (rule_sample_with 3) /\ ElementRules (sdv_periphs (rule_sample_with 3)) /\ exists e, Rejects (rule_sample_with 3) e.
Proof.
  split; [apply rule_sample_rules|]. split; [apply rule_sample_rules|]. split; [exists 20%nat; unfold the_device; vm_compute; reflexivity|]. split; [vm_compute; reflexivity|]. split; [apply rule_sample_rules|]. split; [apply rule_sample_rules|].
  eexists. exists 20%nat. eexists. split; [vm_compute; reflexivity|discriminate].
Qed.
(** [Acceptable] is met by the resolved device of the sample, and not met by that of the second *)
Example C50_nonvacuous : (exists w i, Resolves rule_sample w i /\ Acceptable i) /\ exists w i, Resolves (rule_sample_with 3) w i /\ ~ Acceptable i.
Proof.
  split.
  - destruct (C49_resolved rule_sample) as (w & i & R & _); [apply rule_sample_rules|apply rule_sample_rules|]. exists w, i. split; [exact R|]. apply (C50_accepted_iff _ _ _ R). exists (fst rule_result), (the_device rule_result). apply C49_nonvacuous.
  - destruct (C49_resolved (rule_sample_with 3)) as (w & i & R & _); [apply rule_sample_rules|apply rule_sample_rules|]. exists w, i. split; [exact R|]. intros HA. apply (C50_accepted_iff _ _ _ R) in HA as (ws & dev & P).
    destruct C49_nonvacuous as (_ & _ & _ & _ & _ & _ & e & E). exact (Processes_not_Rejects _ _ _ _ P E).
Qed.
(** an array of peripherals derived from the array of the sample (taking over its dim), with a register of its own; and, declared before both, a
    peripheral derived from the derived one *)
Definition derived_sample : svd_device :=
  s_dev ([s_per_dim nodim (sized 16) "Z" 65536 [] None (Some "Q[%s]")] ++ sdv_periphs rule_sample ++
         [s_per_dim nodim noprops "Q[%s]" 20480 [s_reg "X" 128 [] None None] None (Some "P[%s]")]).
Lemma derived_sample_rules : DerivedRules (sdv_periphs derived_sample).
Proof.
  destruct (rule_sample_rules 4) as [N (_ & HR)].
  assert (BQ : forall p, In p (sdv_periphs rule_sample) -> PlainBase (sdv_periphs derived_sample) (s_per_dim nodim noprops "Q[%s]" 20480 [s_reg "X" 128 [] None None] None (Some "P[%s]")) p).
  { intros p [<-|[]]. exists "P[%s]". eexists [_], [_]. split; [reflexivity|]. split; [reflexivity|]. split; [reflexivity|]. split; [reflexivity|]. intros r [<-|[<-|[]]]; discriminate. }
  assert (BZ : PlainBase (sdv_periphs derived_sample) (s_per_dim nodim (sized 16) "Z" 65536 [] None (Some "Q[%s]")) (s_per_dim nodim noprops "Q[%s]" 20480 [s_reg "X" 128 [] None None] None (Some "P[%s]"))).
  { exists "Q[%s]". eexists [_; _], []. split; [reflexivity|]. split; [reflexivity|]. split; [reflexivity|]. split; [reflexivity|]. intros r [<-|[<-|[]]]; discriminate. }
  assert (HQ : Grounded (sdv_periphs derived_sample) (s_per_dim nodim noprops "Q[%s]" 20480 [s_reg "X" 128 [] None None] None (Some "P[%s]"))).
  { eapply Gr_via; [apply BQ; now left|]. apply Gr_own. reflexivity. }
  assert (HD : forall e, Declared (sdv_periphs derived_sample) e -> level_of e <> LPeripheral -> Declared (sdv_periphs rule_sample) e \/ e = PaRc (s_reg "X" 128 [] None None)).
  { assert (HX : forall p x, In p (sdv_periphs derived_sample) -> DeclaredRc (sp_rcs p) x -> (exists p, In p (sdv_periphs rule_sample) /\ DeclaredRc (sp_rcs p) x) \/ x = s_reg "X" 128 [] None None).
    { intros p x [<-|[<-|[<-|[]]]] Hx; [inversion Hx; subst; match goal with K : In _ _ |- _ => destruct K end| |].
      - left. eexists. split; [now left|exact Hx].
      - right. inversion Hx as [? ? Hi|? ? ? ? Hi _]; subst; destruct Hi as [Hi|[]]; [now rewrite <- Hi|discriminate Hi]. }
    intros e He Hl. destruct e as [|p|x|f|v]; [destruct He|now destruct Hl| | |].
    - destruct He as (p & Hp & Hx). destruct (HX p x Hp Hx) as [K | ->]; [left; exact K|now right].
    - destruct He as (p & r & Hp & Hr & Hf). destruct (HX p _ Hp Hr) as [(q & Hq & K)|K]; [left; exists q, r; auto|injection K as ->; destruct Hf].
    - destruct He as (f & (p & r & Hp & Hr & Hf) & Hv). destruct (HX p _ Hp Hr) as [(q & Hq & K)|K]; [left; exists f; split; [exists q, r; auto|exact Hv]|injection K as ->; destruct Hf]. }
  split; [discriminate|]. split; [|split].
  - intros p [<-|[<-|[<-|[]]]]; (split; [|]).
    + eapply Gr_via; [exact BZ|exact HQ].
    + left. apply no_placeholder_dec. reflexivity.
    + apply Gr_own. reflexivity.
    + right. split; [exists "P", ""; reflexivity|]. exists 2. split; [now apply DV_own|lia].
    + exact HQ.
    + right. split; [exists "Q", ""; reflexivity|]. exists 2. split; [|lia]. eapply DV_via; [reflexivity|apply BQ; now left|]. now apply DV_own.
  - intros e s He Hs. destruct e as [|p|x|f|v]; try discriminate Hs.
    + cbn in He. destruct He as [<-|[<-|[<-|[]]]]; cbn in Hs; try discriminate Hs. injection Hs as <-. lia.
    + destruct (HD _ He) as [K|K]; [destruct x; discriminate| |injection K as ->; discriminate Hs]. apply (HR (PaRc x) K); [destruct x; discriminate|exact Hs].
  - intros e He Hl. destruct (HD e He Hl) as [K | ->].
    + split; [exact (und_of _ N e K)|]. split; [intros Hv; apply (HR e K Hv)|]. intros f ->. apply (HR (PaFld f) K); [discriminate|reflexivity].
    + split; [reflexivity|]. split; [|discriminate]. intros _. left. split; [apply no_placeholder_dec; reflexivity|intros s K; discriminate].
Qed.
Definition derived_result := process_device 20 derived_sample.
Example C52_nonvacuous : DerivedRules (sdv_periphs derived_sample) /\ Processes derived_sample (fst derived_result) (the_device derived_result) /\
  outline (the_device derived_result) =
    [("P0", [("Q", 4096); ("R0", 4112); ("R1", 4116); ("R0", 4144); ("R1", 4148)]); ("P1", [("Q", 8192); ("R0", 8208); ("R1", 8212); ("R0", 8240); ("R1", 8244)]);
     ("Q0", [("Q", 20480); ("R0", 20496); ("R1", 20500); ("R0", 20528); ("R1", 20532); ("X", 20608)]);
     ("Q1", [("Q", 24576); ("R0", 24592); ("R1", 24596); ("R0", 24624); ("R1", 24628); ("X", 24704)]);
     ("Z", [("Q", 65536); ("R0", 65552); ("R1", 65556); ("R0", 65584); ("R1", 65588); ("X", 65664)])].
Proof. split; [exact derived_sample_rules|]. split; [exists 20%nat; unfold the_device; vm_compute; reflexivity|vm_compute; reflexivity]. Qed.
Print Assumptions C52_resolved.
Print Assumptions C52_accepted_iff.
Print Assumptions C49_resolved.
Print Assumptions C49_accepted_iff.
Print Assumptions C50_accepted_iff.
Print Assumptions C50_rejected_iff.
