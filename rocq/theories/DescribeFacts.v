(** * DescribeFacts: the values created for one element are the described ones (SpecExpand). *)
From Verif Require Import Base PyStr PyInt Types DimModel EnumModel ElemModel ResolveModel ResolveInv SpecDim SpecElem SpecDeclared DimFacts ElemFacts PropsDim PropsElem SpecExpand.

(** a value without children *)
Definition Bare (v : processed) : Prop :=
  match v with PrPer p => ip_rcs p = [] | PrRc (IReg r) => ir_fields r = [] | PrRc (IClu _ l) => l = [] | PrFld f => if_evcs f = [] end.
Definition kind_level (v : processed) : level :=
  match v with PrPer _ => LPeripheral | PrRc (IReg _) => LRegister | PrRc (IClu _ _) => LCluster | PrFld _ => LField end.

Lemma inh_merge {A B} (own : option B) (f : A -> option B) base : merge own f base = inh own f base.
Proof. unfold merge, inh, own_or, of_base. destruct own; [reflexivity|]. destruct base; reflexivity. Qed.
Lemma props_from own base : PropsFrom own base (merge_props own base).
Proof. unfold PropsFrom, merge_props. cbn. rewrite !inh_merge. repeat split. Qed.
Lemma dim_from p bv : merge_dim (parsed_dim p) (option_map processed_dim bv) = dim_of_base p bv.
Proof. unfold dim_of_base. rewrite <- eff_dim_spec, <- eff_inc_spec, <- eff_index_spec. destruct (merge_dim _ _); reflexivity. Qed.

Definition shown (k : Z) (display : option string) : option string :=
  option_map (fun s => if contains "[%s]" s then replace "[%s]" (str_of_Z k) s else s) display.

Lemma create_element_attr k name display p bv ws v : same_kind p bv -> create_element k name display p bv = (ws, Ok v) ->
  Attributes p bv v /\ processed_dim v = dim_of_base p bv /\
  processed_display v = match p with PaRc (SReg _) => shown k display | _ => None end /\ Bare v /\ kind_level v = level_of p.
Proof.
  intros Hk H. rewrite <- dim_from. destruct p as [|p|[r|c l]|f|e]; cbn [create_element] in H; minv.
  - split; [|split; [|split; [reflexivity|split; reflexivity]]].
    + cbn [Attributes]. unfold process_peripheral. cbn [ip_b pb_version pb_descr pb_altper pb_group pb_prepend pb_append pb_header pb_disable pb_abs pb_ints ip_props].
      rewrite !inh_merge. unfold per_base_of.
      assert (Hab : forall l, exists m, Forall2 SameBlock l m /\ process_address_blocks l = isort (zkey_le ab_offset) m).
      { intros l. eexists. split; [|reflexivity]. induction l as [|a l IH]; cbn; constructor; [|exact IH]. unfold SameBlock. cbn. repeat split. }
      destruct (Hab (sp_abs p)) as (m & Hf & Hpa). rewrite Hpa. assert (Hperm := isort_perm (zkey_le ab_offset) m).
      split; [reflexivity|]. split; [reflexivity|]. split; [reflexivity|]. split; [reflexivity|]. split; [reflexivity|]. split; [reflexivity|]. split; [reflexivity|]. split; [reflexivity|].
      split; [|split; [|split]].
      * intros Hn. rewrite Hn in Hf. inversion Hf. subst. reflexivity.
      * intros Hn. exists m. split; [exact Hf|]. assert (HL := isort_listed ab_offset m). destruct (isort (zkey_le ab_offset) m) as [|x l] eqn:Ei; [|exact HL].
        exfalso. apply Permutation_sym, Permutation_nil in Hperm. subst m. inversion Hf. congruence.
      * apply isort_listed.
      * apply props_from.
    + destruct bv as [[b|[b|b ?]|b]|]; cbn in Hk |- *; try contradiction; reflexivity.
  - split; [|split; [|split; [reflexivity|split; reflexivity]]].
    + cbn [Attributes]. unfold process_register. cbn [ir_b rb_descr rb_altgroup rb_altreg rb_dtype rb_mwv rb_wc rb_ra ir_props]. rewrite !inh_merge. unfold reg_base_of.
      repeat (split; [reflexivity|]). split; [|repeat (split; [reflexivity|]); apply props_from].
      unfold inh, own_or. destruct (sr_mwv r); [reflexivity|]. destruct (match bv with Some (PrRc (IReg b)) => Some b | _ => None end); reflexivity.
    + destruct bv as [[b|[b|b ?]|b]|]; cbn in Hk |- *; try contradiction; reflexivity.
  - split; [|split; [|split; [reflexivity|split; reflexivity]]].
    + cbn [Attributes]. unfold process_cluster. cbn [ic_b cb_descr cb_altclu cb_header ic_props]. rewrite !inh_merge. unfold clu_base_of.
      repeat (split; [reflexivity|]). apply props_from.
    + destruct bv as [[b|[b|b ?]|b]|]; cbn in Hk |- *; try contradiction; reflexivity.
  - unfold process_field in Hm. minv. split; [|split; [|split; [reflexivity|split; reflexivity]]].
    + cbn [Attributes]. cbn [if_b fb_descr fb_mwv fb_wc fb_ra if_access]. rewrite !inh_merge. unfold fld_base_of.
      split; [reflexivity|]. split; [|split; [reflexivity|split; [reflexivity|]]].
      * unfold inh, own_or. destruct (sf_mwv f); [reflexivity|]. destruct (match bv with Some (PrFld b) => Some b | _ => None end); reflexivity.
      * unfold inh, own_or. destruct (sf_access f); [reflexivity|]. destruct (match bv with Some (PrFld b) => Some b | _ => None end); reflexivity.
    + destruct bv as [[b|[b|b ?]|b]|]; cbn in Hk |- *; try contradiction; reflexivity.
Qed.

Lemma create_elements_attr p bv : same_kind p bv -> forall names k displays ws vs, create_elements k names displays p bv = (ws, Ok vs) ->
  forall i v, nth_error vs i = Some v -> Attributes p bv v /\ processed_dim v = dim_of_base p bv /\
    processed_display v = match p with PaRc (SReg _) => shown (k + Z.of_nat i) (match nth_error displays i with Some d => d | None => None end) | _ => None end /\
    Bare v /\ kind_level v = level_of p.
Proof.
  intros Hk. induction names as [|n names IH]; intros k displays ws vs H i v Hi; cbn [create_elements] in H; minv; [destruct i; discriminate|].
  destruct i as [|i]; cbn in Hi.
  - injection Hi as <-. apply create_element_attr in Hm; [|exact Hk]. rewrite Z.add_0_r. destruct displays; exact Hm.
  - eapply IH in Hm0; [|exact Hi]. replace (k + Z.of_nat (S i)) with (k + 1 + Z.of_nat i) by lia. destruct displays as [|d ds]; [|exact Hm0].
    cbn [tl nth_error] in *. destruct i; exact Hm0.
Qed.

(** renaming and dropping dim change nothing else *)
Lemma without_dim_facts v p bv sh : 
  processed_name (without_dim v) = processed_name v /\ processed_display (without_dim v) = processed_display v /\
  processed_dim (without_dim v) = none_dim /\ (Attributes p bv v -> Attributes p bv (without_dim v)) /\ (Placed p bv sh v -> Placed p bv sh (without_dim v)) /\
  (Bare v -> Bare (without_dim v)) /\ kind_level (without_dim v) = kind_level v /\ processed_size (without_dim v) = processed_size v.
Proof. destruct v as [q|[q|q l]|q]; cbn; repeat split; auto; destruct p as [|p|[r|c l']|f|e]; auto. Qed.
Lemma with_name_facts n v p bv sh :
  processed_name (with_name n v) = n /\ processed_display (with_name n v) = processed_display v /\
  processed_dim (with_name n v) = processed_dim v /\ (Attributes p bv v -> Attributes p bv (with_name n v)) /\ (Placed p bv sh v -> Placed p bv sh (with_name n v)) /\
  (Bare v -> Bare (with_name n v)) /\ kind_level (with_name n v) = kind_level v /\ processed_size (with_name n v) = processed_size v.
Proof. destruct v as [q|[q|q l]|q]; cbn; repeat split; auto; destruct p as [|p|[r|c l']|f|e]; auto. Qed.

Lemma attributes_size p bv v v' : Attributes p bv v -> Attributes p bv v' -> processed_size v = processed_size v'.
Proof.
  destruct p as [|p|[r|c l]|f|e], v as [q|[q|q m]|q], v' as [q'|[q'|q' m']|q']; cbn; try tauto; unfold PropsFrom;
    intuition; repeat match goal with H : op_size _ = _ |- _ => rewrite H end; reflexivity.
Qed.

Lemma created_described p bv ws (isd : bool) names displays ws' v vs : same_kind p bv ->
  node_dimension p bv = (ws, Ok (isd, names, displays)) -> create_elements 0 names displays p bv = (ws', Ok (v :: vs)) ->
  if isd then Described p bv (map without_dim (v :: vs)) (Some (with_name (parsed_name p) v)) else vs = [] /\ Described p bv [v] None.
Proof.
  intros Hk Hd Hc. destruct isd.
  - assert (HC := C05_dim_instances _ _ _ _ _ _ _ Hk Hd Hc).
    assert (Hat := create_elements_attr _ _ Hk _ _ _ _ _ Hc). assert (Hn := create_elements_nth _ _ Hk _ _ _ _ _ Hc).
    unfold node_dimension in Hd. rewrite eff_dim_spec, eff_index_spec in Hd.
    apply extract_dim_true in Hd as (d & Hd & Hph & _ & Hp). apply process_dim_ok in Hp as (idx & Hl & H1 & _ & Hnm & Hds & Hcp & Harr & Hlist).
    assert (Hlen := create_elements_length _ _ _ _ _ _ _ Hc). rewrite Hnm, map_length in Hlen.
    destruct (Hat 0%nat v eq_refl) as (Ha0 & Hd0 & Hs0 & _). destruct (Hn 0%nat v eq_refl) as (n0 & _ & _ & Hp0).
    assert (HP0 : Placed p bv 0 v). { replace 0 with (default 0 (eff_inc p bv) * (0 + Z.of_nat 0)) by (cbn; lia). exact Hp0. }
    destruct (with_name_facts (parsed_name p) v p bv 0) as (W1 & W2 & W3 & W4 & W5 & _).
    apply Many with (n := d) (idx := idx) (ph := placeholder (parsed_name p)); auto.
    + rewrite map_length, Hlen. exact Hl.
    + rewrite map_length, Hlen. reflexivity.
    + unfold placeholder in *. destruct (contains "[%s]" (parsed_name p)) eqn:E.
      * left. split; [now apply contains_spec|]. split; [reflexivity|]. now apply Harr.
      * right. split; [intros (a & b & H); exact (proj1 (contains_false_spec _ _) E _ _ H)|]. split; [reflexivity|]. split; [now apply contains_spec|].
        intros l HI HL. destruct (C07_dim_index _ _ _ HI) as [HC7 _]. specialize (HC7 H1 HL). specialize (Hlist eq_refl). rewrite HC7 in Hlist. now injection Hlist.
    + intros k w Hw. rewrite nth_error_map in Hw. destruct (nth_error (v :: vs) k) as [u|] eqn:Eu; [|discriminate]. injection Hw as <-.
      destruct (Hat k u Eu) as (Ha & Hdu & Hsu & _). destruct (Hn k u Eu) as (name & Hin & Hnu & Hpl).
      rewrite Hnm, nth_error_map in Hin. destruct (nth_error idx k) as [ix|] eqn:Ei; [|discriminate]. injection Hin as <-.
      exists ix. split; [reflexivity|].
      destruct (without_dim_facts u p bv (Z.of_nat k * default 0 (eff_inc p bv))) as (D1 & D2 & D3 & D4 & D5 & _).
      rewrite D1, Hnu. split; [apply replace_Subst, placeholder_ne|]. split.
      { apply D5. replace (Z.of_nat k * default 0 (eff_inc p bv)) with (default 0 (eff_inc p bv) * (0 + Z.of_nat k)) by lia. exact Hpl. }
      split; [now apply D4|]. rewrite D2, D3, Hsu, Hds, nth_error_map, Ei. cbn [option_map].
      set (dis := or_if_none _ _). assert (Edis : match p with PaRc (SReg _) => True | _ => dis = None end).
      { unfold dis. destruct p as [|?|[?|? ?]|?|?]; try exact I; reflexivity. }
      assert (Eed : eff_display p bv = dis).
      { unfold eff_display, dis, or_if_none, own_or, obind. destruct p as [|?|[?|? ?]|?|?]; try reflexivity; destruct (parsed_display _); try reflexivity; destruct bv; reflexivity. }
      rewrite Eed. split; [|split; [|reflexivity]].
      * intros ->. destruct p as [|?|[?|? ?]|?|?]; reflexivity.
      * intros s Es. rewrite Es in *. set (s1 := replace (placeholder (parsed_name p)) ix s). exists s1, (replace "[%s]" (str_of_Z (Z.of_nat k)) s1).
        split; [apply replace_Subst, placeholder_ne|]. split; [apply replace_Subst; discriminate|]. destruct p as [|?|[?|? ?]|?|?]; try discriminate. unfold shown. cbn [option_map]. fold s1. rewrite Z.add_0_l.
        destruct (contains "[%s]" s1) eqn:E2; [reflexivity|]. f_equal. symmetry. apply replace_none. exact E2.
    + rewrite W3. exact Hd0.
    + intros w Hw. cbn in Hw. injection Hw as <-. destruct (without_dim_facts v p bv 0) as (_ & D2 & _). rewrite W2, D2. reflexivity.
  - destruct (C05_no_dim_single _ _ _ _ _ _ _ Hk Hd Hc) as (Hnp & _ & v' & Hv & Hname & Hpl). injection Hv as -> ->. split; [reflexivity|].
    destruct (create_elements_attr _ _ Hk _ _ _ _ _ Hc 0%nat v' eq_refl) as (Ha & Hdm & Hs & _).
    unfold node_dimension in Hd. rewrite eff_dim_spec, eff_index_spec in Hd. unfold extract_dimension in Hd.
    set (dis := or_if_none _ _) in *.
    assert (Eed : eff_display p bv = dis).
    { unfold eff_display, dis, or_if_none, own_or, obind. destruct p as [|?|[?|? ?]|?|?]; try reflexivity; destruct (parsed_display _); try reflexivity; destruct bv; reflexivity. }
    minv. assert (a0 = None) as ->.
    { destruct (eff_dim p bv) as [d|]; [|now minv]. destruct (contains "%s" (parsed_name p)) eqn:E; minv; auto. discriminate. }
    cbn [process_dim] in *. minv. cbn [snd nth_error] in Hs. constructor; auto; [rewrite Hs, Eed; clear Hs|rewrite Eed; intros s Es; rewrite Es in *; intros (xa & xb & E2);
      match goal with H : contains "%s" s = false |- _ => exact (proj1 (contains_false_spec _ _) H _ _ E2) end].
    destruct p as [|?|[?|? ?]|?|?]; try (symmetry; reflexivity). unfold shown. destruct dis as [s|] eqn:Es; [|reflexivity]. cbn [option_map].
    destruct (contains "[%s]" s) eqn:E2; [|reflexivity]. exfalso. apply contains_spec in E2 as (xa & xb & E2).
    match goal with H : contains "%s" s = false |- _ => apply (proj1 (contains_false_spec _ _) H (xa ++ "[")%string ("]" ++ xb)%string) end.
    rewrite E2. rewrite <- sapp_assoc. reflexivity.
Qed.

(** ** Names *)
Lemma described_named e bv vs tv v : Described e bv vs tv -> In v vs \/ tv = Some v -> MayBeCalled e (processed_name v).
Proof.
  intros H Hv. destruct H as [w _ Hn _ _ _ _ _|vs tv n idx ph _ _ _ _ Hph Hvs Hn _ _ _ _].
  - destruct Hv as [[->|[]]|Hv]; [left; congruence|discriminate].
  - destruct Hv as [Hv|Hv]; [|injection Hv as ->; left; congruence]. apply In_nth_error in Hv as [k Hk]. destruct (Hvs k v Hk) as (ix & _ & Hs & _). right. exists ph, ix. split; [|exact Hs].
    destruct Hph as [(_ & -> & _)|(_ & -> & _)]; auto.
Qed.

(** ** Elaboration regardless of the siblings *)
Inductive Elabw (ps : list svd_periph) : parsed -> list parsed -> list processed -> option processed -> Prop :=
| Elabw_own e vs tv : derived_of e = None -> Described e None vs tv -> Elabw ps e (kids_of e) vs tv
| Elabw_derived e path eb kb vsb tvb bv vs tv : derived_of e = Some path ->
    Declared ps eb -> level_of eb = level_of e -> Elabw ps eb kb vsb tvb -> In bv vsb \/ tvb = Some bv -> processed_name bv = path_end path ->
    Described e (Some bv) vs tv -> Elabw ps e (kids_of e ++ kb) vs tv.
Lemma elabw_named ps e ks vs tv v : Elabw ps e ks vs tv -> In v vs \/ tv = Some v -> MayBeCalled e (processed_name v).
Proof. intros H. destruct H as [e vs tv _ HD|e path eb kb vsb tvb bv vs tv _ _ _ _ _ _ HD]; exact (described_named _ _ _ _ _ HD). Qed.
Lemma elab_weak ps sc e ks vs tv : Elab ps sc e ks vs tv -> Elabw ps e ks vs tv.
Proof. induction 1 as [sc e vs tv H HD|sc e path sb eb kb vsb tvb bv vs tv H1 H2 H3 H4 H5 IH H6 H7 H8]; [now apply Elabw_own|]. eapply Elabw_derived; eassumption. Qed.
Lemma elab_named ps sc e ks vs tv v : Elab ps sc e ks vs tv -> In v vs \/ tv = Some v -> MayBeCalled e (processed_name v).
Proof. intros H. apply (elabw_named ps e ks vs tv v). now apply elab_weak in H. Qed.
Lemma elab_mono ps sc sc' e ks vs tv : incl sc sc' -> Elab ps sc e ks vs tv -> Elab ps sc' e ks vs tv.
Proof.
  intros Hi H. revert sc' Hi. induction H as [sc e vs tv H HD|sc e path sb eb kb vsb tvb bv vs tv H1 H2 H3 H4 H5 IH H6 H7 H8]; intros sc' Hi; [now apply Elab_own|].
  destruct (list_eq_dec string_dec (split_on "." path) [path]) as [E|E].
  - destruct (H4 E) as [-> K]. apply (Elab_derived ps sc' e path sc' eb kb vsb tvb bv); auto.
  - apply (Elab_derived ps sc' e path sb eb kb vsb tvb bv); auto. intros K. contradiction.
Qed.

(** the peripherals of a description together with a notion of elaboration; the facts about the resolver's graph are needed for two such notions *)
Record Sys : Type := {
  sy_ps :> list svd_periph;
  sy_El : list parsed -> parsed -> list parsed -> list processed -> option processed -> Prop;
  sy_mono : forall sc sc' e ks vs tv, incl sc sc' -> sy_El sc e ks vs tv -> sy_El sc' e ks vs tv;
  sy_weak : forall sc e ks vs tv, sy_El sc e ks vs tv -> Elabw sy_ps e ks vs tv }.
Definition loose (ps : list svd_periph) : Sys := {| sy_ps := ps; sy_El := fun _ => Elabw ps; sy_mono := fun _ _ _ _ _ _ _ H => H; sy_weak := fun _ _ _ _ _ H => H |}.
Definition strict (ps : list svd_periph) : Sys := {| sy_ps := ps; sy_El := Elab ps; sy_mono := elab_mono ps; sy_weak := elab_weak ps |}.
