(** * PropsDeep: elements derived from those beside them, at every level, are accepted (C56). *)
From Verif Require Import Base PyStr PyInt Types DimModel EnumModel ElemModel FinalModel ResolveModel ProcessModel SpecProcess SpecDim SpecElem SpecEnum SpecDevice SpecDeclared SpecExpand SpecAccept.
From Verif Require Import TextFacts DimFacts EnumFacts EffectFacts ResolveInv DescribeFacts ExpandInv BuildOk AcceptFacts AcceptDeep FinalErr FuelFacts FinalAccept PropsDim PropsElem PropsDevice PropsExpand PropsTerm PropsAccept OrderFacts Samples.
From Coq Require Import ZifyBool ZifyNat ZifyN.

(** ** Index texts *)
Definition nopc (c : ascii) : bool := negb (Ascii.eqb c "%").
Lemma nopc_none s : sforallb nopc s = true -> forall a b, s <> (a ++ "%" ++ b)%string.
Proof. intros H a b ->. rewrite !sforallb_app in H. apply andb_prop in H as [_ H]. discriminate. Qed.
Lemma nopc_str n : 0 <= n -> sforallb nopc (str_of_Z n) = true.
Proof. intros H. destruct (digits_str n H) as [_ K]. apply (TextFacts.sforallb_impl is_digit); [|exact K]. intros c Hc. unfold nopc. destruct (Ascii.eqb c "%") eqn:E; [apply Ascii.eqb_eq in E; subst; discriminate|reflexivity]. Qed.
Lemma dec_val_ge s : forall acc, 0 <= acc -> sforallb is_digit s = true -> 0 <= dec_val acc s.
Proof.
  induction s as [|c s IH]; intros acc Ha H; cbn [dec_val]; [exact Ha|]. cbn [sforallb] in H. apply andb_prop in H as [H1 H2]. apply IH; [|exact H2]. unfold is_digit, in_code_range, code in H1. lia.
Qed.
Lemma nopc_range a b ix : 0 <= a -> In ix (map str_of_Z (zrange a b)) -> sforallb nopc ix = true.
Proof. intros H K. apply in_map_iff in K as (z & <- & K). apply zrange_in in K. apply nopc_str. lia. Qed.
Lemma nopc_index n t l ix : Index n t l -> In ix l -> sforallb nopc ix = true.
Proof.
  intros H K. destruct H as [|a b [_ Ha] _ _|x y Hx Hy _|s ws HW].
  - eapply nopc_range; [|exact K]. lia.
  - eapply nopc_range; [|exact K]. now apply dec_val_ge.
  - apply in_map_iff in K as (z & <- & K). apply zrange_in in K. unfold single. cbn [sforallb]. rewrite andb_true_r. unfold nopc. destruct (Ascii.eqb _ _) eqn:E; [|reflexivity]. exfalso.
    apply Ascii.eqb_eq in E. assert (E' : N_of_ascii (ascii_of_N (Z.to_N z)) = N_of_ascii "%") by (f_equal; exact E). unfold is_upper, in_code_range, code in *. rewrite N_ascii_embedding in E'; [|lia]. cbn in E'. lia.
  - assert (Hw : forall w, word w -> sforallb nopc w = true).
    { intros w [_ Hw]. apply (TextFacts.sforallb_impl is_word); [|exact Hw]. intros c Hc. unfold nopc. destruct (Ascii.eqb c "%") eqn:E; [apply Ascii.eqb_eq in E; subst; discriminate|reflexivity]. }
    induction HW as [w Hww|w sp s ws Hww _ _ IH]; destruct K as [<-|K]; auto; try (now destruct K).
Qed.

(** ** What is taken over *)
Lemma takes_fun {A} (st : parsed -> option A) sibs e o : Takes st sibs e o -> forall o', Takes st sibs e o' -> o' = o.
Proof.
  induction 1 as [e x Hx|e Hn Hd|e b o Hn Hb _ IH]; intros o' H'; inversion H' as [e1 x1 Hx1|e1 Hn1 Hd1|e1 b1 o1 Hn1 Hb1 HT1]; subst; try congruence.
  - exfalso. destruct Hb1 as (path & l1 & l2 & K & _). congruence.
  - exfalso. destruct Hb as (path & l1 & l2 & K & _). congruence.
  - rewrite (sib_fun _ _ _ _ Hb Hb1) in HT1. now apply IH.
Qed.
Lemma takes_base {A} (st : parsed -> option A) sibs e b o : SiblingBase sibs e b -> Takes st sibs b o -> Takes st sibs e (own_or (st e) o).
Proof. intros Hb Ht. destruct (st e) as [x|] eqn:E; cbn; [now apply Tk_stated|now apply Tk_via with b]. Qed.
Lemma takes_own {A} (st : parsed -> option A) sibs e : derived_of e = None -> Takes st sibs e (own_or (st e) None).
Proof. intros Hd. destruct (st e) as [x|] eqn:E; cbn; [now apply Tk_stated|now apply Tk_none]. Qed.
Lemma takes_nodisplay sibs e o : Takes parsed_display sibs e o -> level_of e <> LRegister -> o = None.
Proof.
  induction 1 as [e x Hx|e Hn Hd|e b o Hn Hb _ IH]; intros Hl; [|reflexivity|].
  - destruct e as [|?|[?|? ?]|?|?]; try discriminate Hx. now destruct Hl.
  - apply IH. now rewrite (sib_level _ _ _ Hb).
Qed.
Lemma content_fun sibs e ks : Content sibs e ks -> forall ks', Content sibs e ks' -> ks' = ks.
Proof.
  induction 1 as [e Hd|e b kb Hb _ IH]; intros ks' H'; inversion H' as [e1 Hd1|e1 b1 kb1 Hb1 HC1]; subst; try reflexivity.
  - exfalso. destruct Hb1 as (path & l1 & l2 & K & _). congruence.
  - exfalso. destruct Hb as (path & l1 & l2 & K & _). congruence.
  - rewrite (sib_fun _ _ _ _ Hb Hb1) in HC1. f_equal. now apply IH.
Qed.
Lemma bits_fun f base m l m' l' : Bits f base m l -> Bits f base m' l' -> m = m' /\ l = l'.
Proof.
  set (g := option_map (fun b => mk_ifield (mk_fb "" None (snd b) (fst b) MWV_MODIFY None None) none_dim None []) base).
  assert (E : base = option_map (fun b => (fb_msb (if_b b), fb_lsb (if_b b))) g) by (unfold g; destruct base as [[? ?]|]; reflexivity). rewrite E.
  intros H1 H2. apply (proj2 (C09_field_bits f g "" m l)) in H1 as (ws & x & H1 & <- & <-). apply (proj2 (C09_field_bits f g "" m' l')) in H2 as (ws' & x' & H2 & <- & <-). rewrite H1 in H2. injection H2 as _ <-. auto.
Qed.

(** ** What an element stands for, given the rules *)
Definition dims_of (x : parsed) : option Z := sd_dim (parsed_dim x).
Definition index_of_ (x : parsed) : option string := sd_index (parsed_dim x).
Lemma described_level e bv vs tv : Described e bv vs tv -> level_of e <> LEnum.
Proof.
  intros D. assert (H : exists v, Attributes e bv v) by (destruct D as [v _ _ _ HA _ _ _|vs tv n idx ph _ _ _ _ _ _ _ _ HA _ _]; eauto). destruct H as (v & H). destruct e as [|?|[?|? ?]|?|?]; cbn; try discriminate. destruct H.
Qed.
Lemma described_dim e bv vs tv v : Described e bv vs tv -> val_of vs tv v -> processed_dim v = dim_of_base e bv /\ Placed e bv 0 v.
Proof. intros D. destruct D as [v0 _ _ HP _ _ Hd _|vs tv n idx ph _ _ _ _ _ _ _ HP _ Hd _]; cbn; intros E; [injection E as ->; auto|subst; auto]. Qed.
Lemma described_display e bv vs tv v : Described e bv vs tv -> val_of vs tv v ->
  (eff_display e bv = None -> processed_display v = None) /\ forall s, eff_display e bv = Some s -> ~ has_placeholder s -> processed_display v = Some s.
Proof.
  intros D. destruct D as [v0 _ _ _ _ Hd _ _|vs tv n idx ph _ Hn Hlen _ Hph HV _ _ _ _ Ht]; cbn; intros E.
  - injection E as ->. rewrite Hd. split; auto.
  - subst tv. destruct vs as [|v1 vs]; [cbn in Hlen; lia|]. rewrite (Ht v1 eq_refl). destruct (HV 0%nat v1 eq_refl) as (ix & _ & _ & _ & _ & H1 & H2 & _). split; [exact H1|]. intros s Hs Hnp. destruct (H2 s Hs) as (s' & s'' & S1 & S2 & ->).
    assert (E1 : s' = s) by (apply (subst_plain ph ix); auto; destruct Hph as [(_ & -> & _)|(_ & -> & _)]; auto). subst s'. f_equal. apply (subst_plain "[%s]" (str_of_Z (Z.of_nat 0))); auto.
Qed.
Lemma described_bits f bv vs tv v : Described (PaFld f) bv vs tv -> In v vs -> exists g m l, v = PrFld g /\ Bits f (bv_bits bv) m l /\ fb_msb (if_b g) - fb_lsb (if_b g) = m - l.
Proof.
  intros D H. assert (HP : exists k, Placed (PaFld f) bv k v).
  { destruct D as [v0 _ _ HP _ _ _ _|vs tv n idx ph _ _ _ _ _ Hn _ _ _ _ _]; [destruct H as [<-|[]]; eauto|]. apply In_nth_error in H as (k & H). destruct (Hn k _ H) as (ix & _ & _ & HP & _). eauto. }
  destruct HP as (k & HP). destruct v as [?|[?|? ?]|g]; try (now destruct HP). destruct HP as (m & l & HB & E1 & E2). exists g, m, l. split; [reflexivity|]. split; [exact HB|lia].
Qed.
Lemma described_instance sibs e bv vs tv v : Described e bv vs (Some tv) -> In v vs -> DimRulesAt sibs e -> Takes dims_of sibs e (eff_dim e bv) -> Takes index_of_ sibs e (eff_index e bv) -> InstanceName e (processed_name v).
Proof.
  intros D Hv HR HT1 HT2. inversion D as [|vs0 tv0 n idx ph Hn Hpos Hlen Hidx Hph HV _ _ _ _ _]; subst. apply In_nth_error in Hv as (k & Hk). destruct (HV k v Hk) as (ix & Hix & Hs & _). apply nth_error_In in Hix. exists ix. destruct Hph as [(Ha & -> & ->)|(Ha & -> & Hp & HI)].
  - split; [apply nopc_none; eapply nopc_range; [|exact Hix]; lia|]. left. auto.
  - split; [|right; auto]. apply nopc_none. destruct HR as (disp & _ & _ & [[K _]|(n' & Tn & Pn & [(K & _)|(_ & _ & _ & _ & ix' & l & Ti & HIx & Hl)])]); [contradiction|contradiction|].
    assert (En := takes_fun _ _ _ _ Tn _ HT1). rewrite Hn in En. injection En as En. rewrite <- En in HIx, Hl. assert (Ei := takes_fun _ _ _ _ Ti _ HT2). rewrite <- Ei in HIx. rewrite (HI l HIx Hl) in Hix. eapply nopc_index; eassumption.
Qed.

Section Rules.
  Context (ps : list svd_periph) (HC : forall sibs e, Group ps sibs -> In e sibs -> exists ks, Content sibs e ks)
    (HD : forall sibs e, Group ps sibs -> In e sibs -> level_of e <> LEnum -> DimRulesAt sibs e).
  Definition Known (sc : list parsed) (e : parsed) (vs : list processed) (tv : option processed) : Prop :=
    (forall v, val_of vs tv v -> Takes dims_of sc e (id_dim (processed_dim v)) /\ Takes index_of_ sc e (id_index (processed_dim v)) /\
       (level_of e = LRegister -> forall o, Takes parsed_display sc e o -> (o = None -> processed_display v = None) /\ forall s, o = Some s -> ~ has_placeholder s -> processed_display v = Some s) /\
       (forall f m l, e = PaFld f -> BitsVia sc f m l -> bv_bits (Some v) = Some (m, l))) /\
    (forall t, tv = Some t -> forall v, In v vs -> InstanceName e (processed_name v)) /\
    (forall f m l v, e = PaFld f -> BitsVia sc f m l -> In (PrFld v) vs -> fb_msb (if_b v) - fb_lsb (if_b v) = m - l).
  Lemma known sc e ks vs tv : Elab ps sc e ks vs tv -> Group ps sc -> In e sc -> Known sc e vs tv.
  Proof.
    induction 1 as [sc e vs tv Hd D|sc e path sb eb kb vsb tvb bv vs tv Hd _ Hl Hsc HEb IH Hbv Hnm D]; intros HG He.
    - assert (Hlv := described_level _ _ _ _ D). assert (HR := HD sc e HG He Hlv).
      assert (T1 : Takes dims_of sc e (eff_dim e None)) by (apply (takes_own dims_of); exact Hd). assert (T2 : Takes index_of_ sc e (eff_index e None)) by (apply (takes_own index_of_); exact Hd).
      split; [|split].
      + intros v Hv. destruct (described_dim _ _ _ _ _ D Hv) as [E HP]. rewrite E. split; [exact T1|]. split; [exact T2|]. split.
        * intros Hr o Ho. destruct (described_display _ _ _ _ _ D Hv) as [X1 X2]. assert (Eo : eff_display e None = o).
          { apply (takes_fun _ _ _ _ Ho). unfold eff_display. replace (match e with PaRc (SReg _) => None | _ => None end) with (@None string) by (destruct e as [|?|[?|? ?]|?|?]; reflexivity). now apply takes_own. }
          rewrite Eo in X1, X2. auto.
        * intros f m l -> HB. inversion HB as [f0 m0 l0 Hd0 HB0|f0 b m0 l0 m1 l1 (p0 & q1 & q2 & K & _) _ _]; subst; [|cbn in Hd, K; congruence].
          destruct v as [?|[?|? ?]|g]; try (now destruct HP). destruct HP as (m' & l' & HB' & E1 & E2). destruct (bits_fun _ _ _ _ _ _ HB0 HB') as [-> ->]. cbn. f_equal. f_equal; lia.
      + intros t -> v Hv. eapply described_instance; eauto.
      + intros f m l v -> HB Hv. inversion HB as [f0 m0 l0 Hd0 HB0|f0 b m0 l0 m1 l1 (p0 & q1 & q2 & K & _) _ _]; subst; [|cbn in Hd, K; congruence].
        destruct (described_bits _ _ _ _ _ D Hv) as (g & m' & l' & E & HB' & Ew). injection E as <-. destruct (bits_fun _ _ _ _ _ _ HB0 HB') as [-> ->]. exact Ew.
    - destruct (HC sc e HG He) as (ks0 & HK). destruct (content_via _ _ _ HK) as [K|(b & Hb)]; [congruence|]. destruct (sib_path sc e b path Hb Hd) as [Hbn Hs]. destruct (Hsc Hs) as [-> Hin].
      assert (Hpe : path_end path = path) by (unfold path_end; rewrite Hs; reflexivity). rewrite Hpe in Hnm. destruct (IH HG Hin) as (I1 & I2 & _). destruct (elab_described _ _ _ _ _ _ HEb) as (bv0 & Db).
      assert (Hval : val_of vsb tvb bv).
      { destruct tvb as [t|]; cbn.
        - destruct Hbv as [Hbv|Hbv]; [|now injection Hbv]. exfalso. apply (sib_inst sc e b path eb Hb Hd Hin Hl). rewrite <- Hnm. exact (I2 t eq_refl bv Hbv).
        - destruct Hbv as [Hbv|Hbv]; [|discriminate]. inversion Db; subst. destruct Hbv as [->|[]]. reflexivity. }
      assert (eb = b). { apply (sib_name sc e b path); auto. rewrite <- Hnm. symmetry. exact (described_name _ _ _ _ _ Db Hval). } subst eb. clear Hbv. destruct (I1 bv Hval) as (B1 & B2 & B3 & B4). clear I1 I2 IH.
      assert (Hlv := described_level _ _ _ _ D). assert (HR := HD sc e HG He Hlv).
      assert (T1 : Takes dims_of sc e (eff_dim e (Some bv))) by (apply (takes_base dims_of sc e b); auto). assert (T2 : Takes index_of_ sc e (eff_index e (Some bv))) by (apply (takes_base index_of_ sc e b); auto).
      assert (HBits : forall f m l, e = PaFld f -> BitsVia sc f m l -> Bits f (bv_bits (Some bv)) m l).
      { intros f m l -> HB. inversion HB as [f0 m0 l0 Hd0 HB0|f0 b0 m0 l0 m1 l1 Hb0 HBb HB0]; subst; [cbn in Hd; congruence|]. rewrite (B4 b0 m0 l0); [exact HB0| |exact HBb]. exact (eq_sym (sib_fun _ _ _ _ Hb Hb0)). }
      split; [|split].
      + intros v Hv. destruct (described_dim _ _ _ _ _ D Hv) as [E HP]. rewrite E. split; [exact T1|]. split; [exact T2|]. split.
        * intros Hr o Ho. destruct (described_display _ _ _ _ _ D Hv) as [X1 X2]. assert (Hrb : level_of b = LRegister) by congruence. destruct e as [|?|[r|? ?]|?|?]; try discriminate Hr.
          unfold eff_display in X1, X2. destruct (parsed_display (PaRc (SReg r))) as [s0|] eqn:Es; cbn [own_or] in X1, X2.
          -- inversion Ho as [e1 x1 Hx1|e1 Hn1 Hd1|e1 b1 o1 Hn1 Hb1 HT1]; subst; try congruence. rewrite Es in Hx1. injection Hx1 as <-. split; [discriminate|]. intros s K. injection K as <-. now apply X2.
          -- inversion Ho as [e1 x1 Hx1|e1 Hn1 Hd1|e1 b1 o1 Hn1 Hb1 HT1]; subst; try congruence. rewrite (sib_fun _ _ _ _ Hb Hb1) in HT1. destruct (B3 Hrb o HT1) as [Y1 Y2]. split; [intros ->; apply X1; now apply Y1|]. intros s -> Hnp. apply X2; auto.
        * intros f m l -> HB. specialize (HBits f m l eq_refl HB). destruct v as [?|[?|? ?]|g]; try (now destruct HP). destruct HP as (m' & l' & HB' & E1 & E2). destruct (bits_fun _ _ _ _ _ _ HBits HB') as [-> ->]. cbn. f_equal. f_equal; lia.
      + intros t -> v Hv. eapply described_instance; eauto.
      + intros f m l v -> HB Hv. specialize (HBits f m l eq_refl HB). destruct (described_bits _ _ _ _ _ D Hv) as (g & m' & l' & E & HB' & Ew). injection E as <-. destruct (bits_fun _ _ _ _ _ _ HBits HB') as [-> ->]. exact Ew.
  Qed.
End Rules.

(** ** One element *)
Lemma shift_ok f k name base m l : Bits f (option_map (fun b => (fb_msb (if_b b), fb_lsb (if_b b))) base) m l -> exists ws g, process_field k name f base = (ws, Ok g).
Proof.
  intros H. apply (proj2 (C09_field_bits f base name m l)) in H as (ws & g & H & _). unfold process_field in *. apply bind_ok in H as (w1 & ml & w2 & H1 & _ & _). rewrite H1. cbn. eauto.
Qed.
Lemma create_at e bv : (forall k name d, exists ws v, create_element k name d e bv = (ws, Ok v)) -> forall names k ds, ok (create_elements k names ds e bv).
Proof.
  intros H. induction names as [|n names IH]; intros k ds; cbn [create_elements]; [apply ok_ret|]. apply ok_bind; [apply H|]. intros ws v _. apply ok_bind; [apply IH|]. intros. apply ok_ret.
Qed.
Lemma local_at sibs e bv : level_of e <> LEnum -> level_of e <> LDevice -> DimRulesAt sibs e -> Takes dims_of sibs e (eff_dim e bv) -> Takes index_of_ sibs e (eff_index e bv) ->
  (forall o, Takes parsed_display sibs e o -> (parsed_display e = None -> forall s, o = Some s -> ~ has_placeholder s) -> eff_display e bv = o) ->
  (forall f, e = PaFld f -> exists m l, Bits f (bv_bits bv) m l) -> LocalOk e bv.
Proof.
  intros He Hd (o & To & Hno & HD) T1 T2 HO HF. specialize (HO o To Hno).
  assert (HC : forall k name d, exists ws v, create_element k name d e bv = (ws, Ok v)).
  { intros k name d. destruct e as [|p|[r|c l]|f|x]; cbn in He, Hd |- *; try congruence; try (eexists; eexists; reflexivity).
    destruct (HF f eq_refl) as (m & l & HB). destruct (shift_ok f k name (fld_base_of bv) m l) as (ws & g & E); [|unfold fld_base_of in E; rewrite E; cbn; eauto]. destruct bv as [[?|[?|? ?]|?]|]; exact HB. }
  assert (HN : exists ws isd names displays, node_dimension e bv = (ws, Ok (isd, names, displays)) /\ names <> []).
  { unfold node_dimension. rewrite dim_from. unfold dim_of_base. cbn [id_dim id_index]. replace (or_if_none (parsed_display e) _) with o by (rewrite <- HO; unfold eff_display, or_if_none, own_or, obind; destruct (parsed_display e), bv, e as [|?|[?|? ?]|?|?]; reflexivity).
    unfold extract_dimension. destruct HD as [[H1 H2]|(n & Hn & Hpos & [(H1 & H2 & H3)|(H1 & H2 & H3 & H4 & ix & l & Ti & H5 & H6)])].
    - rewrite (not_contains _ _ H1). assert (Hdisp : match o with Some s => PyStr.contains "%s" s | None => false end = false).
      { destruct o as [s|]; [|reflexivity]. now rewrite (not_contains _ _ (H2 s eq_refl)). }
      destruct (eff_dim e bv) as [d|].
      + unfold raise_if at 1. rewrite bind_ret_l. cbn [bind warn ret app]. rewrite Hdisp. cbn. eexists _, _, _, _. split; [reflexivity|discriminate].
      + unfold raise_if at 1. rewrite bind_ret_l. cbn [bind ret app]. rewrite Hdisp. cbn. eexists _, _, _, _. split; [reflexivity|discriminate].
    - rewrite (takes_fun _ _ _ _ Hn _ T1). rewrite (proj2 (contains_spec _ _) (array_placeholder _ H1)). unfold raise_if at 1. rewrite bind_ret_l. rewrite bind_ret_l.
      replace (match o with Some _ | _ => false end) with false by (destruct o; reflexivity). unfold raise_if at 1. rewrite bind_ret_l.
      unfold process_dim. replace (n <? 1) with false by lia. unfold raise_if at 1. rewrite bind_ret_l. rewrite (proj2 (contains_spec _ _) H1).
      assert (HP : exists names displays, process_dim_array (parsed_name e) o n = ([], Ok (names, displays)) /\ names <> []).
      { unfold process_dim_array. replace (match o with Some d => _ | None => false end) with false.
        - cbn. eexists _, _. split; [reflexivity|]. intros K. apply map_eq_nil, map_eq_nil in K. assert (X : length (zrange 0 n) = 0%nat) by (rewrite K; reflexivity). rewrite zrange_length in X. lia.
        - destruct o as [s|]; [|reflexivity]. destruct (H3 s eq_refl) as [K|K]; [rewrite (proj2 (contains_spec _ _) K); reflexivity|rewrite (not_contains _ _ K); now rewrite andb_false_r]. }
      destruct HP as (names & displays & HP & Hne). exists [], true, names, displays. split; [|exact Hne].
      destruct e as [|p|[r|c l]|f|x]; cbn in He, Hd, H2; try congruence; cbn [parsed_kind]; rewrite HP; reflexivity.
    - rewrite (takes_fun _ _ _ _ Hn _ T1). rewrite (proj2 (contains_spec _ _) H1). unfold raise_if at 1. rewrite bind_ret_l. rewrite bind_ret_l.
      replace (match o with Some _ | _ => false end) with false by (destruct o; reflexivity). unfold raise_if at 1. rewrite bind_ret_l.
      unfold process_dim. replace (n <? 1) with false by lia. unfold raise_if at 1. rewrite bind_ret_l. rewrite (not_contains _ _ H2), (proj2 (contains_spec _ _) H1). rewrite (takes_fun _ _ _ _ Ti _ T2).
      assert (HP : exists names displays, process_dim_list (parsed_name e) o n ix = ([], Ok (names, displays)) /\ names <> []).
      { unfold process_dim_list. replace (match o with Some d => _ | None => false end) with false.
        - unfold raise_if. rewrite bind_ret_l. rewrite (proj1 (C07_dim_index n _ l H5) Hpos H6). cbn. eexists _, _. split; [reflexivity|]. destruct l; [cbn in H6; lia|discriminate].
        - destruct o as [s|]; [|reflexivity]. now rewrite (not_contains _ _ (H4 s eq_refl)). }
      destruct HP as (names & displays & HP & Hne). exists [], true, names, displays. split; [|exact Hne].
      destruct e as [|p|[r|c l']|f|x]; cbn in He, Hd, H3; try congruence; cbn [parsed_kind]; rewrite HP; reflexivity. }
  destruct HN as (ws & isd & names & displays & HN & Hne). destruct (create_at e bv HC names 0 displays) as (ws' & vs & HV). assert (HL := create_elements_length _ _ _ _ _ _ _ HV).
  destruct vs as [|v vs]; [destruct names; [congruence|discriminate]|]. exists ws, isd, names, displays, ws', v, vs. auto.
Qed.

Lemma sibling_plain d : SiblingRules (sdv_periphs d) -> plain_bases d.
Proof.
  intros (_ & Quiet & _). assert (K : forall a e, MayBeBase (sdv_periphs d) a -> Inside a e -> ~ derived_cluster e) by (intros a e Ha Hi [_ X]; apply X; eapply Quiet; eassumption).
  split; [intros a e Ha _; now apply K|right; exact K].
Qed.
(** *** C56 *)
(** A description that keeps these rules is resolved: every base is found and processed before the elements derived from it. *)
Theorem C56_resolved : forall d, SiblingRules (sdv_periphs d) ->
  exists ws i, Resolves d ws i /\ idv_b i = process_device_base d /\ Expansion (sdv_periphs d) (idv_periphs i).
Proof.
  intros d HR. assert (HR' := HR). destruct HR' as (Hne & Quiet & HE & HG). set (ps := sdv_periphs d) in *.
  assert (HC : forall sibs e, Group ps sibs -> In e sibs -> exists ks, Content sibs e ks) by (intros sibs e H1 H2; apply (HG sibs e H1 H2)).
  assert (HD : forall sibs e, Group ps sibs -> In e sibs -> level_of e <> LEnum -> DimRulesAt sibs e) by (intros sibs e H1 H2; apply (HG sibs e H1 H2)).
  assert (HF : forall sibs f, Group ps sibs -> In (PaFld f) sibs -> FieldRulesAt sibs f) by (intros sibs f H1 H2; apply (HG sibs _ H1 H2); reflexivity).
  assert (HEv : forall e, Declared ps e -> is_evc e -> derived_of e = None) by (intros e He Hx; apply (HE e He); destruct e; try contradiction; reflexivity).
  assert (HI : forall sibs x kb vs tv v e b path, Group ps sibs -> In x sibs -> Elab ps sibs x kb vs (Some tv) -> In v vs -> SiblingBase sibs e b -> derived_of e = Some path -> level_of x = level_of e -> processed_name v <> path).
  { intros sibs x kb vs tv v e b path G Hx HEl Hv Hb Hd Hl E. destruct (known ps HC HD _ _ _ _ _ HEl G Hx) as (_ & K & _). apply (sib_inst sibs e b path x Hb Hd Hx Hl). rewrite <- E. exact (K tv eq_refl v Hv). }
  assert (Hlev : forall sibs e, Group ps sibs -> In e sibs -> level_of e <> LDevice). { intros sibs e G He. assert (K := group_declared ps sibs G e He). destruct e as [|?|[?|? ?]|?|?]; try discriminate. destruct K. }
  assert (Hnev : forall e, ~ is_evc e -> level_of e <> LEnum) by (intros e K X; apply K; destruct e as [|?|[?|? ?]|?|?]; try discriminate; exact Logic.I).
  destruct (accepted_deep ps Quiet HEv HC HI) as (fuel & ws & l & E).
  - intros sibs e G He Hv Hd. apply (local_at sibs); auto; [eapply Hlev; eassumption|apply (takes_own dims_of); exact Hd|apply (takes_own index_of_); exact Hd| |].
    + intros o To _. apply (takes_fun _ _ _ _ To). unfold eff_display. replace (match e with PaRc (SReg _) => None | _ => None end) with (@None string) by (destruct e as [|?|[?|? ?]|?|?]; reflexivity). now apply takes_own.
    + intros f ->. destruct (HF sibs f G He) as (m & k & es & HB & _). inversion HB as [f0 m0 l0 Hd0 HB0|f0 b m0 l0 m1 l1 (p0 & q1 & q2 & K & _) _ _]; subst; [eauto|cbn in Hd, K; congruence].
  - intros sibs e b kb vsb tvb bv G He Hv Hb HEl Hval. assert (Hbi := sib_in _ _ _ Hb). destruct (known ps HC HD _ _ _ _ _ HEl G Hbi) as (K & _ & _). destruct (K bv Hval) as (B1 & B2 & B3 & B4). clear K. assert (Hbl := sib_level _ _ _ Hb).
    apply (local_at sibs); auto; [eapply Hlev; eassumption|apply (takes_base dims_of sibs e b); auto|apply (takes_base index_of_ sibs e b); auto| |].
    + intros o To Hno. assert (X : derived_of e <> None) by (destruct Hb as (path & q1 & q2 & Y & _); congruence). destruct e as [|?|[r|? ?]|?|?]; try (symmetry; apply (takes_nodisplay _ _ _ To); discriminate).
      unfold eff_display. destruct (parsed_display (PaRc (SReg r))) as [s0|] eqn:Es; cbn [own_or].
      * inversion To as [e1 x1 Hx1|e1 Hn1 Hd1|e1 b1 o1 Hn1 Hb1 HT1]; subst; congruence.
      * inversion To as [e1 x1 Hx1|e1 Hn1 Hd1|e1 b1 o1 Hn1 Hb1 HT1]; subst; try congruence. rewrite (sib_fun _ _ _ _ Hb Hb1) in HT1. destruct (B3 Hbl o HT1) as [Y1 Y2]. destruct o as [s|]; [|now apply Y1]. apply Y2; auto.
    + intros f ->. destruct (HF sibs f G He) as (m & k & es & HB & _). inversion HB as [f0 m0 l0 Hd0 HB0|f0 b0 m0 l0 m1 l1 Hb0 HBb HB0]; subst; [destruct Hb as (p0 & q1 & q2 & K & _); cbn in K; congruence|].
      exists m, k. rewrite (B4 b0 m0 l0); [exact HB0| |exact HBb]. exact (eq_sym (sib_fun _ _ _ _ Hb Hb0)).
  - exact Hne.
  - intros e s He Hs. apply (proj2 (HE e He)). exact Hs.
  - intros sibs f ks vs tv v G He HEl Hin. destruct (HF sibs f G He) as (m & k & es & HB & HCo & HU & HCs). destruct (known ps HC HD _ _ _ _ _ HEl G He) as (_ & _ & K). assert (Ew := K f m k v eq_refl HB Hin).
    exists es. split; [apply (content_fun _ _ _ HCo); apply (elab_content ps HC HI sibs (PaFld f) ks vs tv G He HEl)|].
    destruct (containers_ok es (fb_lsb (if_b v)) (fb_msb (if_b v))) as (ics & F & Eu). { intros c Hc. replace (fb_msb (if_b v) - fb_lsb (if_b v) + 1) with (m - k + 1) by lia. now apply HCs. }
    exists ics. split; [exact F|]. rewrite Eu. destruct HU as [HU|[HU|HU]].
    + destruct es as [|c [|c' cs]]; cbn in HU |- *; [now left|right; left; eauto|lia].
    + destruct es as [|c [|c' [|c2 cs]]]; try discriminate. cbn in HU |- *. injection HU as -> ->. right. right. now left.
    + destruct es as [|c [|c' [|c2 cs]]]; try discriminate. cbn in HU |- *. injection HU as -> ->. right. right. now right.
  - assert (R : Resolves d ws (mk_idev (process_device_base d) l)) by (exists fuel, l; auto). exists ws, (mk_idev (process_device_base d) l). split; [exact R|]. exact (resolves_expansion d ws _ (sibling_plain d HR) R).
Qed.
(** What Process does with such a description. *)
Theorem C56_accepted_iff : forall d, SiblingRules (sdv_periphs d) ->
  exists i, idv_b i = process_device_base d /\ Expansion (sdv_periphs d) (idv_periphs i) /\
    ((exists ws dev, Processes d ws dev) <-> Acceptable i) /\ ((exists e, Rejects d e) <-> ~ Acceptable i).
Proof.
  intros d HR. destruct (C56_resolved d HR) as (ws & i & R & Eb & PE). exists i. split; [exact Eb|]. split; [exact PE|]. split; [exact (C50_accepted_iff d ws i R)|].
  split; [|intros H; apply (C50_rejected_iff d ws i R) in H as (e & H & _); eauto].
  intros (e & H) HA. apply (C50_accepted_iff d ws i R) in HA as (w2 & dev & P). exact (Processes_not_Rejects d w2 dev e P H).
Qed.

(** *** Example *)
(** an array of peripherals and a peripheral derived from it; in a third one: a cluster array derived from a cluster, a list of registers derived from
    a derived list of registers (both take over dim), and a field derived from a field with enumerated values, taking over its width and its values;
    each stands before its base *)
Definition dsp_a := s_reg "A" 0 [] None None.
Definition dsp_b := s_reg "B" 4 [] None None.
Definition dsp_v := s_reg "V" 4 [] None None.
Definition dsp_w := s_reg "W" 0 [] None None.
Definition dsp_e := s_evc None [s_ev "a" "1"; s_ev "b" "2"] None.
Definition dsp_f := s_field "F" (Some 0) (Some 3) None [dsp_e] None.
Definition dsp_g := mk_sfield nodim "G" None (Some 8) None None None None None None None None [] (Some "F").
Definition dsp_u := s_reg "U%s" 96 [] None (Some "S%s").
Definition dsp_d := SClu (mk_sclu (dims 2 8) noprops "D[%s]" None None None 32 (Some "C")) [dsp_v].
Definition dsp_c := s_clu noprops "C" 16 None [dsp_w] None.
Definition dsp_s := s_reg "S%s" 80 [] None (Some "R%s").
Definition dsp_r := s_reg_dim (dims 2 4) noprops "R%s" 64 [] None None.
Definition dsp_t := s_reg "T" 128 [dsp_g; dsp_f] None None.
Definition dsp_q := s_per_dim nodim (sized 16) "Q" 65536 [dsp_b] None (Some "P[%s]").
Definition dsp_p := s_per_dim (dims 2 4096) noprops "P[%s]" 4096 [dsp_a] None None.
Definition dsp_z := s_per "Z" 131072 [dsp_u; dsp_d; dsp_c; dsp_s; dsp_r; dsp_t] None None.
Definition deep_sample : svd_device := s_dev [dsp_q; dsp_p; dsp_z].
Definition deep_result := process_device 30 deep_sample.
Definition deep_els : list parsed := map PaPer [dsp_q; dsp_p; dsp_z] ++ map PaRc [dsp_a; dsp_b; dsp_u; dsp_d; dsp_v; dsp_c; dsp_w; dsp_s; dsp_r; dsp_t] ++ [PaFld dsp_g; PaFld dsp_f; PaEvc dsp_e].
Definition deep_groups : list (list parsed) :=
  [map PaPer [dsp_q; dsp_p; dsp_z]; map PaRc [dsp_a]; map PaRc [dsp_b; dsp_a]; map PaRc [dsp_u; dsp_d; dsp_c; dsp_s; dsp_r; dsp_t]; map PaRc [dsp_v; dsp_w]; map PaRc [dsp_w]; []; [PaFld dsp_g; PaFld dsp_f]; [PaEvc dsp_e]].
Lemma deep_declared e : Declared (sdv_periphs deep_sample) e -> In e deep_els.
Proof.
  assert (HR : forall p x, In p (sdv_periphs deep_sample) -> DeclaredRc (sp_rcs p) x -> In x [dsp_a; dsp_b; dsp_u; dsp_d; dsp_v; dsp_c; dsp_w; dsp_s; dsp_r; dsp_t]).
  { intros p x Hp Hx. assert (K := declared_of deep_sample p x Hp Hx). change (all_of deep_sample) with [dsp_b; dsp_a; dsp_u; dsp_d; dsp_v; dsp_c; dsp_w; dsp_s; dsp_r; dsp_t] in K. cbn [In] in *. tauto. }
  assert (HF : forall f, DeclaredField (sdv_periphs deep_sample) f -> f = dsp_g \/ f = dsp_f).
  { intros f (p & r & Hp & Hr & Hf). apply (HR _ _ Hp) in Hr. cbn [In] in Hr. repeat (destruct Hr as [Hr|Hr]; [try discriminate Hr; injection Hr as <-; cbn in Hf; intuition congruence|]). destruct Hr. }
  intros H. unfold deep_els. apply in_app_iff. destruct e as [|p|x|f|v].
  - destruct H.
  - left. now apply in_map.
  - right. apply in_app_iff. left. apply in_map. destruct H as (p & Hp & Hx). exact (HR p x Hp Hx).
  - right. apply in_app_iff. right. destruct (HF f H) as [-> | ->]; cbn; auto.
  - right. apply in_app_iff. right. destruct H as (f & Hf & Hv). destruct (HF f Hf) as [-> | ->]; cbn in Hv |- *; intuition congruence.
Qed.
Lemma inside_closed (L : list parsed) a e : incl (kids_of a) L -> (forall x, In x L -> incl (kids_of x) L) -> Inside a e -> In e L.
Proof. intros H1 H2. induction 1 as [e He|x e _ IH He]; [now apply H1|exact (H2 x IH e He)]. Qed.
Lemma instance_text x path : InstanceName x path -> has_placeholder (parsed_name x) /\ exists ix, (forall a b, ix <> (a ++ "%" ++ b)%string) /\ path = replace (if contains "[%s]" (parsed_name x) then "[%s]" else "%s") ix (parsed_name x).
Proof.
  intros (ix & Hix & [(Ha & Hs)|(Ha & Hp & Hs)]).
  - split; [now apply array_placeholder|]. exists ix. split; [exact Hix|]. rewrite (proj2 (contains_spec _ _) Ha). apply subst_fun; auto.
  - split; [exact Hp|]. exists ix. split; [exact Hix|]. destruct (contains "[%s]" (parsed_name x)) eqn:E; [apply contains_spec in E; contradiction|]. apply subst_fun; auto.
Qed.
Ltac no_instance := let H := fresh in let ix := fresh in let N := fresh in let E := fresh in
  intros H; apply instance_text in H as (H & ix & N & E);
  first [ revert H; apply no_placeholder_dec; reflexivity
        | cbn in E; rewrite ?sapp_nil_r in E; discriminate E
        | cbn in E; injection E; clear E; intros E; rewrite ?sapp_nil_r in E; first [apply (N "" "s"); symmetry; exact E | apply (N "[" "s]"); symmetry; exact E] ].
Ltac sibling n := let x := fresh in let Hx := fresh in
  match goal with |- SiblingBase ?l _ _ => eexists _, (firstn n l), (skipn (Datatypes.S n) l) end; split; [reflexivity|]; split; [reflexivity|]; split; [reflexivity|]; split; [reflexivity|]; split; [reflexivity|]; split;
  [intros x Hx; cbn in Hx; repeat (destruct Hx as [<-|Hx]; [cbn; first [discriminate | intros _; discriminate]|]); destruct Hx
  |intros x Hx; cbn in Hx; repeat (destruct Hx as [<-|Hx]; [first [discriminate | intros _; no_instance]|]); destruct Hx].
Lemma sb_q : SiblingBase (map PaPer [dsp_q; dsp_p; dsp_z]) (PaPer dsp_q) (PaPer dsp_p).
Proof. sibling 1%nat. Qed.
Lemma sb_u : SiblingBase (map PaRc [dsp_u; dsp_d; dsp_c; dsp_s; dsp_r; dsp_t]) (PaRc dsp_u) (PaRc dsp_s).
Proof. sibling 3%nat. Qed.
Lemma sb_d : SiblingBase (map PaRc [dsp_u; dsp_d; dsp_c; dsp_s; dsp_r; dsp_t]) (PaRc dsp_d) (PaRc dsp_c).
Proof. sibling 2%nat. Qed.
Lemma sb_s : SiblingBase (map PaRc [dsp_u; dsp_d; dsp_c; dsp_s; dsp_r; dsp_t]) (PaRc dsp_s) (PaRc dsp_r).
Proof. sibling 4%nat. Qed.
Lemma sb_g : SiblingBase [PaFld dsp_g; PaFld dsp_f] (PaFld dsp_g) (PaFld dsp_f).
Proof. sibling 1%nat. Qed.
Ltac pick := cbn; repeat (first [left; reflexivity | right]).
Lemma deep_content sibs e : In sibs deep_groups -> In e sibs -> exists ks, Content sibs e ks /\ In ks deep_groups.
Proof.
  intros Hs. unfold deep_groups in Hs. cbn [In] in Hs. repeat destruct Hs as [<-|Hs]; intros He; cbn [In map] in He; repeat (destruct He as [<-|He]); try (now destruct He); try (now destruct Hs);
    try (eexists; split; [apply Co_own; reflexivity|pick]; fail).
  - eexists; split; [eapply Co_via; [exact sb_q|apply Co_own; reflexivity]|pick].
  - eexists; split; [eapply Co_via; [exact sb_u|]; eapply Co_via; [exact sb_s|apply Co_own; reflexivity]|pick].
  - eexists; split; [eapply Co_via; [exact sb_d|apply Co_own; reflexivity]|pick].
  - eexists; split; [eapply Co_via; [exact sb_s|apply Co_own; reflexivity]|pick].
  - eexists; split; [eapply Co_via; [exact sb_g|apply Co_own; reflexivity]|pick].
Qed.
Lemma deep_grouped sibs : Group (sdv_periphs deep_sample) sibs -> In sibs deep_groups.
Proof.
  induction 1 as [|sibs e ks _ IH He HC]; [now left|]. destruct (deep_content sibs e IH He) as (ks' & HC' & K). rewrite (content_fun _ _ _ HC' _ HC). exact K.
Qed.
Lemma plain_at sibs e : ~ has_placeholder (parsed_name e) -> Takes parsed_display sibs e None -> DimRulesAt sibs e.
Proof. intros H T. exists None. split; [exact T|]. split; [discriminate|]. left. split; [exact H|discriminate]. Qed.
Lemma array_at sibs e n : is_array (parsed_name e) -> level_of e <> LField -> Takes parsed_display sibs e None -> Takes (fun x => sd_dim (parsed_dim x)) sibs e (Some n) -> 1 <= n -> DimRulesAt sibs e.
Proof. intros H L T D N. exists None. split; [exact T|]. split; [discriminate|]. right. exists n. split; [exact D|]. split; [exact N|]. left. split; [exact H|]. split; [exact L|discriminate]. Qed.
Lemma list_at sibs e n : has_placeholder (parsed_name e) -> ~ is_array (parsed_name e) -> level_of e <> LPeripheral -> Takes parsed_display sibs e None -> Takes (fun x => sd_dim (parsed_dim x)) sibs e (Some n) -> 1 <= n ->
  Takes (fun x => sd_index (parsed_dim x)) sibs e None -> DimRulesAt sibs e.
Proof.
  intros H A L T D N X. exists None. split; [exact T|]. split; [discriminate|]. right. exists n. split; [exact D|]. split; [exact N|]. right. split; [exact H|]. split; [exact A|]. split; [exact L|]. split; [discriminate|].
  exists None, (map str_of_Z (zrange 0 n)). split; [exact X|]. split; [apply Ix_none|]. rewrite map_length, zrange_length. lia.
Qed.
Lemma deep_dims sibs e : In sibs deep_groups -> In e sibs -> level_of e <> LEnum -> DimRulesAt sibs e.
Proof.
  intros Hs. unfold deep_groups in Hs. cbn [In] in Hs. repeat destruct Hs as [<-|Hs]; intros He; cbn [In map] in He; repeat (destruct He as [<-|He]); try (now destruct He); try (now destruct Hs); intros Hl;
    try (now destruct Hl); try (apply plain_at; [apply no_placeholder_dec; reflexivity|apply Tk_none; reflexivity]; fail).
  - apply plain_at; [apply no_placeholder_dec; reflexivity|]. eapply Tk_via; [reflexivity|exact sb_q|]. apply Tk_none; reflexivity.
  - apply (array_at _ _ 2); [exists "P", ""; reflexivity|discriminate|apply Tk_none; reflexivity|apply Tk_stated; reflexivity|lia].
  - apply (list_at _ _ 2); [exists "U", ""; reflexivity|apply no_array_dec; reflexivity|discriminate| | |lia|]; (eapply Tk_via; [reflexivity|exact sb_u|]; eapply Tk_via; [reflexivity|exact sb_s|]); [apply Tk_none; reflexivity|apply Tk_stated; reflexivity|apply Tk_none; reflexivity].
  - apply (array_at _ _ 2); [exists "D", ""; reflexivity|discriminate|eapply Tk_via; [reflexivity|exact sb_d|]; apply Tk_none; reflexivity|apply Tk_stated; reflexivity|lia].
  - apply (list_at _ _ 2); [exists "S", ""; reflexivity|apply no_array_dec; reflexivity|discriminate| | |lia|]; (eapply Tk_via; [reflexivity|exact sb_s|]); [apply Tk_none; reflexivity|apply Tk_stated; reflexivity|apply Tk_none; reflexivity].
  - apply (list_at _ _ 2); [exists "R", ""; reflexivity|apply no_array_dec; reflexivity|discriminate|apply Tk_none; reflexivity|apply Tk_stated; reflexivity|lia|apply Tk_none; reflexivity].
  - apply plain_at; [apply no_placeholder_dec; reflexivity|]. eapply Tk_via; [reflexivity|exact sb_g|]. apply Tk_none; reflexivity.
Qed.
Lemma dsp_f_bits sibs : BitsVia sibs dsp_f 3 0.
Proof. apply BV_own; [reflexivity|]. apply Bits_pair; [reflexivity|]. split; [left; discriminate|split; reflexivity]. Qed.
Lemma dsp_g_bits : BitsVia [PaFld dsp_g; PaFld dsp_f] dsp_g 11 8.
Proof. eapply BV_via; [exact sb_g|apply dsp_f_bits|]. apply Bits_offset; [reflexivity|intros m l [[K|K] _]; now apply K|]. split; [left; discriminate|]. split; [reflexivity|]. exists 4. split; reflexivity. Qed.
Lemma dsp_container : ContainerRules 4 dsp_e.
Proof.
  split; [|left].
  - intros v [<-|[<-|[]]]; right; eexists; (split; [reflexivity|]); apply VT_dec; (split; [discriminate|reflexivity]).
  - intros v [<-|[<-|[]]]; discriminate.
Qed.
Lemma deep_fields sibs f : In sibs deep_groups -> In (PaFld f) sibs -> FieldRulesAt sibs f.
Proof.
  intros Hs. unfold deep_groups in Hs. cbn [In] in Hs. repeat destruct Hs as [<-|Hs]; intros He; cbn [In map] in He; repeat (destruct He as [He|He]); try discriminate He; try (now destruct He); try (now destruct Hs).
  - injection He as <-. exists 11, 8, [dsp_e]. split; [exact dsp_g_bits|]. split; [eapply (Co_via _ (PaFld dsp_g)); [exact sb_g|apply Co_own; reflexivity]|]. split; [left; cbn; lia|]. intros c [<-|[]]. exact dsp_container.
  - injection He as <-. exists 3, 0, [dsp_e]. split; [apply dsp_f_bits|]. split; [apply (Co_own _ (PaFld dsp_f)); reflexivity|]. split; [left; cbn; lia|]. intros c [<-|[]]. exact dsp_container.
Qed.
Lemma deep_quiet a e : MayBeBase (sdv_periphs deep_sample) a -> Inside a e -> derived_of e = None.
Proof.
  intros (Ha & x & path & Hx & Hl & Hd & Hm) Hi. apply deep_declared in Ha, Hx.
  assert (HN : ~ has_placeholder (parsed_name a) -> parsed_name a = path_end path). { intros K. destruct Hm as [Hm|(ph & ix & Hph & Hs)]; [exact Hm|]. symmetry. exact (subst_plain ph ix _ _ Hph K Hs). }
  assert (HP : In (level_of x, path_end path) [(LPeripheral, "P[%s]"); (LRegister, "S%s"); (LCluster, "C"); (LRegister, "R%s"); (LField, "F")]).
  { unfold deep_els in Hx. cbn [map app In] in Hx. repeat (destruct Hx as [<-|Hx]; [try discriminate Hd; injection Hd as <-; cbn; auto 10|]). destruct Hx. }
  assert (HL : forall L, incl (kids_of a) L -> (forall y, In y L -> incl (kids_of y) L) -> (forall y, In y L -> derived_of y = None) -> derived_of e = None) by (intros L H1 H2 H3; apply H3; exact (inside_closed L a e H1 H2 Hi)).
  assert (Hnil : kids_of a = [] -> derived_of e = None) by (intros K; apply (HL []); [rewrite K; apply incl_refl|intros y []|intros y []]).
  unfold deep_els in Ha. cbn [map app In] in Ha.
  assert (HO : forall y, kids_of a = [y] -> kids_of y = [] -> derived_of y = None -> derived_of e = None).
  { intros y K1 K2 K3. apply (HL [y]); [rewrite K1; apply incl_refl|intros z [<-|[]]; rewrite K2; intros w []|intros z [<-|[]]; exact K3]. }
  repeat (destruct Ha as [<-|Ha]; [try (apply Hnil; reflexivity); try (eapply HO; reflexivity)|]); [| |destruct Ha].
  - exfalso. specialize (HN ltac:(apply no_placeholder_dec; reflexivity)). rewrite <- HN, Hl in HP. cbn in HP. repeat (destruct HP as [HP|HP]; [discriminate HP|]). destruct HP.
  - exfalso. specialize (HN ltac:(apply no_placeholder_dec; reflexivity)). rewrite <- HN, Hl in HP. cbn in HP. repeat (destruct HP as [HP|HP]; [discriminate HP|]). destruct HP.
Qed.
Lemma deep_rules : SiblingRules (sdv_periphs deep_sample).
Proof.
  split; [discriminate|]. split; [exact deep_quiet|]. split.
  - intros e He. apply deep_declared in He. unfold deep_els in He. cbn [map app In] in He. repeat (destruct He as [<-|He]; [split; [first [discriminate | reflexivity]|intros s K; first [discriminate K | injection K as <-; lia]]|]). destruct He.
  - intros sibs e G He. assert (K := deep_grouped sibs G). split; [destruct (deep_content sibs e K He) as (ks & X & _); eauto|]. split; [now apply deep_dims|]. intros f ->. now apply deep_fields.
Qed.
Definition bits_of (d : device) : list (string * list (string * (Z * Z) * list (list string))) :=
  flat_map (fun p => flat_map (fun x => match x with Reg r => match r_fields r with [] => [] | fs => [(rb_name (r_b r), map (fun f => (fb_name (f_b f), f_bit_range f, map (fun c => map ev_name (evc_evs c)) (f_evcs f))) fs)] end | _ => [] end) (pr_rcs p)) (dv_periphs d).
Example C56_nonvacuous : SiblingRules (sdv_periphs deep_sample) /\ Processes deep_sample (fst deep_result) (the_device deep_result) /\
  outline (the_device deep_result) =
    [("P0", [("A", 4096)]); ("P1", [("A", 8192)]); ("Q", [("A", 65536); ("B", 65540)]);
     ("Z", [("W", 131088); ("W", 131104); ("V", 131108); ("W", 131112); ("V", 131116); ("R0", 131136); ("R1", 131140); ("S0", 131152); ("S1", 131156); ("U0", 131168); ("U1", 131172); ("T", 131200)])] /\
  bits_of (the_device deep_result) = [("T", [("F", (3, 0), [["a"; "b"]]); ("G", (11, 8), [["a"; "b"]])])].
Proof. split; [exact deep_rules|]. split; [exists 30%nat; unfold the_device; vm_compute; reflexivity|]. split; vm_compute; reflexivity. Qed.
Print Assumptions C56_resolved.
Print Assumptions C56_accepted_iff.
