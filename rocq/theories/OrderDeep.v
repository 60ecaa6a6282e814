(** * OrderDeep: the order of siblings, when elements at any level are derived from those beside them (C53) *)
From Verif Require Import Base PyStr PyInt Types DimModel EnumModel ElemModel FinalModel ConvertModel ResolveModel ProcessModel SpecProcess SpecDim SpecElem SpecEnum SpecDevice SpecImage SpecDeclared SpecExpand SpecAccept SpecAgain SpecOrder.
From Verif Require Import TextFacts DimFacts FinalFacts ElemFacts ImageFacts ResolveInv DescribeFacts BuildOk LookupOk AcceptFacts AcceptDeep FinalAccept AgainFacts AgainExpand OrderFinal OrderFacts OrderPer PropsDim PropsElem PropsDevice PropsResolve PropsTerm PropsAccept PropsDeep.
From Coq Require Import ZifyBool ZifyNat ZifyN.

Lemma sh_eqs e e' : Sh e e' -> parsed_name e' = parsed_name e /\ parsed_dim e' = parsed_dim e /\ parsed_display e' = parsed_display e /\ derived_of e' = derived_of e /\ level_of e' = level_of e /\ stated_size e' = stated_size e.
Proof.
  intros H. destruct (level_of e) eqn:El; try (rewrite <- El; apply shell_eqs, sh_shell; [exact H|rewrite El; discriminate]).
  inversion H as [p p' HS|x x' HS|f f' HS|c]; subst; try discriminate; [destruct x; discriminate|repeat split].
Qed.
Lemma sh_evc e c : Sh e (PaEvc c) -> e = PaEvc c.
Proof. intros H. inversion H; reflexivity. Qed.

(** ** The rules hold in any order *)
Section Reorder.
  Context (sibs sibs' : list parsed) (HR : Reordered Sh sibs sibs').
  Lemma sh_base e b e' : SiblingBase sibs e b -> Sh e e' -> exists b', SiblingBase sibs' e' b' /\ Sh b b'.
  Proof.
    intros (path & l1 & l2 & Hd & Hs & E & Hl & Hn & Hu & Hi) HS. destruct (sh_eqs _ _ HS) as (_ & _ & _ & Ed & El & _). destruct HR as (m & P & F). rewrite E in P. assert (Hq : In b m) by (eapply Permutation_in; [exact P|apply in_elt]). apply in_split in Hq as (m1 & m2 & ->). apply Permutation_app_inv in P.
    apply Forall2_app_inv_l in F as (k1 & k2' & F1 & F2 & Ek). inversion F2 as [|? b' ? k2 HSb F3]; subst. exists b'. split; [|exact HSb]. destruct (sh_eqs _ _ HSb) as (Nb & _ & _ & _ & Lb & _). exists (parsed_name b), k1, k2.
    split; [congruence|]. split; [exact Hs|]. split; [reflexivity|]. split; [congruence|]. split; [exact Nb|]. split.
    - intros r' Hr' Hlr. assert (K : exists r, In r (m1 ++ m2) /\ Sh r r') by (apply in_app_iff in Hr' as [Hr'|Hr']; [destruct (Forall2_in_r _ _ _ F1 _ Hr') as (r & X1 & X2)|destruct (Forall2_in_r _ _ _ F3 _ Hr') as (r & X1 & X2)]; exists r; (split; [apply in_app_iff; auto|exact X2])).
      destruct K as (r & Hr & HSr). destruct (sh_eqs _ _ HSr) as (Nr & _ & _ & _ & Lr & _). rewrite Nr. apply Hu; [eapply Permutation_in; [apply Permutation_sym, P|exact Hr]|congruence].
    - intros x' Hx' Hlx. destruct (reordered_from _ _ _ _ HR Hx') as (x & Hx & HSx). destruct (sh_eqs _ _ HSx) as (Nx & _ & _ & _ & Lx & _). unfold InstanceName in *. rewrite Nx. apply Hi; [exact Hx|congruence].
  Qed.
  Lemma sh_content e ks : Content sibs e ks -> forall e', Sh e e' -> exists ks', Content sibs' e' ks' /\ Reordered Sh ks ks'.
  Proof.
    induction 1 as [e Hd|e b kb Hb _ IH]; intros e' HS; assert (HK := sh_kids _ _ HS).
    - exists (kids_of e'). split; [|exact HK]. apply Co_own. destruct (sh_eqs _ _ HS) as (_ & _ & _ & -> & _). exact Hd.
    - destruct (sh_base _ _ _ Hb HS) as (b' & Hb' & HSb). destruct (IH b' HSb) as (kb' & HC & HRb). exists (kids_of e' ++ kb'). split; [exact (Co_via _ _ _ _ Hb' HC)|now apply reordered_app].
  Qed.
  Lemma sh_takes {A} (st : parsed -> option A) (Hst : forall x x', Sh x x' -> st x' = st x) e o : Takes st sibs e o -> forall e', Sh e e' -> Takes st sibs' e' o.
  Proof.
    induction 1 as [e x Hx|e Hn Hd|e b o Hn Hb _ IH]; intros e' HS; destruct (sh_eqs _ _ HS) as (_ & _ & _ & Ed & _).
    - apply Tk_stated. now rewrite (Hst _ _ HS).
    - apply Tk_none; [now rewrite (Hst _ _ HS)|congruence].
    - destruct (sh_base _ _ _ Hb HS) as (b' & Hb' & HSb). apply Tk_via with b'; [now rewrite (Hst _ _ HS)|exact Hb'|now apply IH].
  Qed.
  Lemma bits_unset f l base m lo : Bits f base m lo -> Bits (set_evcs f l) base m lo.
  Proof. intros H. apply (bits_set _ (sf_evcs f)). destruct f. exact H. Qed.
  Lemma sh_bits f m l : BitsVia sibs f m l -> forall f', ShufField f f' -> BitsVia sibs' f' m l.
  Proof.
    induction 1 as [f m l Hd HB|f b m0 l0 m l Hb _ IH HB]; intros f' HS.
    - destruct HS as (le & _ & ->). apply BV_own; [exact Hd|now apply bits_unset].
    - destruct (sh_base _ _ _ Hb (Sh_fld _ _ HS)) as (b' & Hb' & HSb). inversion HSb as [| |? b1 HSb1|]; subst. destruct HS as (le & _ & ->). apply (BV_via _ _ b1 m0 l0); [exact Hb'|now apply IH|now apply bits_unset].
  Qed.
  Lemma sh_dim_rules e e' : DimRulesAt sibs e -> Sh e e' -> DimRulesAt sibs' e'.
  Proof.
    intros (d & Td & Hd & HK) HS. destruct (sh_eqs _ _ HS) as (En & Em & Es & _ & El & _). exists d. split; [apply (sh_takes parsed_display) with e; auto; intros; now apply sh_eqs|]. rewrite Es, En, El. split; [exact Hd|].
    assert (E1 : forall x x', Sh x x' -> sd_dim (parsed_dim x') = sd_dim (parsed_dim x)) by (intros x x' H; destruct (sh_eqs _ _ H) as (_ & -> & _); reflexivity).
    assert (E2 : forall x x', Sh x x' -> sd_index (parsed_dim x') = sd_index (parsed_dim x)) by (intros x x' H; destruct (sh_eqs _ _ H) as (_ & -> & _); reflexivity).
    destruct HK as [HK|(n & Tn & Hn & HK)]; [now left|right]. exists n. split; [exact (sh_takes _ E1 _ _ Tn _ HS)|]. split; [exact Hn|]. destruct HK as [HK|(K1 & K2 & K3 & K4 & ix & l & Ti & K5)]; [now left|right].
    split; [exact K1|]. split; [exact K2|]. split; [exact K3|]. split; [exact K4|]. exists ix, l. split; [exact (sh_takes _ E2 _ _ Ti _ HS)|exact K5].
  Qed.
  Lemma sh_evcs es : forall ks', Reordered Sh (map PaEvc es) ks' -> exists es', ks' = map PaEvc es' /\ Permutation es es'.
  Proof.
    intros ks' (m & P & F). apply Permutation_sym, Permutation_map_inv in P as (es1 & -> & P). exists es1. split; [|exact P]. clear - F. revert ks' F. induction es1 as [|c es1 IH]; intros ks' F; inversion F as [|? y ? l' Hy F']; subst; cbn [map]; [reflexivity|]. inversion Hy; subst. f_equal. now apply IH.
  Qed.
  Lemma sh_field_rules f f' : FieldRulesAt sibs f -> ShufField f f' -> FieldRulesAt sibs' f'.
  Proof.
    intros (m & l & es & HB & HC & HU & HK) HS. destruct (sh_content _ _ HC _ (Sh_fld _ _ HS)) as (ks' & HC' & HRk). destruct (sh_evcs _ _ HRk) as (es' & -> & P). exists m, l, es'. split; [exact (sh_bits _ _ _ HB _ HS)|]. split; [exact HC'|].
    split; [exact (usage_rules_perm _ _ P HU)|]. intros c Hc. apply HK. eapply Permutation_in; [apply Permutation_sym, P|exact Hc].
  Qed.
End Reorder.

Lemma sh_top0 ps ps' : Reordered ShufPer ps ps' -> Reordered Sh (map PaPer ps) (map PaPer ps').
Proof. intros H. apply (reordered_map2 ShufPer Sh PaPer _ _ H). apply Sh_per. Qed.
Lemma sh_group ps ps' : Reordered ShufPer ps ps' -> (forall sibs e, Group ps sibs -> In e sibs -> exists ks, Content sibs e ks) ->
  forall sibs', Group ps' sibs' -> exists sibs, Group ps sibs /\ Reordered Sh sibs sibs'.
Proof.
  intros HR HC. induction 1 as [|sibs' e' ks' _ (sibs & HG & HS) He' HC'].
  - exists (map PaPer ps). split; [constructor|now apply sh_top0].
  - destruct (reordered_from _ _ _ _ HS He') as (e & He & HSe). destruct (HC _ _ HG He) as (ks & HK). destruct (sh_content _ _ HS _ _ HK _ HSe) as (ks2 & HK2 & HRk). rewrite (content_fun _ _ _ HC' _ HK2) in HRk.
    exists ks. split; [exact (Gp_in _ _ _ _ HG He HK)|exact HRk].
Qed.
Lemma sh_inside a' e' : Inside a' e' -> forall a, Sh a a' -> exists e, Inside a e /\ Sh e e'.
Proof.
  induction 1 as [e' He|x' e' _ IH He]; intros a HS.
  - destruct (reordered_from _ _ _ _ (sh_kids _ _ HS) He) as (e & Hi & HSe). exists e. split; [now constructor|exact HSe].
  - destruct (IH a HS) as (x & Hx & HSx). destruct (reordered_from _ _ _ _ (sh_kids _ _ HSx) He) as (e & Hi & HSe). exists e. split; [exact (Inside_deep _ _ _ Hx Hi)|exact HSe].
Qed.
Theorem sibling_rules_shuffled ps ps' : Reordered ShufPer ps ps' -> SiblingRules ps -> SiblingRules ps'.
Proof.
  intros HR (Hne & Quiet & HE & HG). split; [|split; [|split]].
  - intros ->. apply Hne. apply (proj2 (reordered_nil _ _ _ HR)). reflexivity.
  - intros a' e' (Da & x' & path & Dx & Hl & Hp & Hm) Hi. destruct (shuf_any ps ps' HR a' Da) as (a & Da0 & HSa). destruct (shuf_any ps ps' HR x' Dx) as (x & Dx0 & HSx). destruct (sh_inside _ _ Hi _ HSa) as (e & Hi0 & HSe).
    destruct (sh_eqs _ _ HSe) as (_ & _ & _ & -> & _). apply (Quiet a e); [|exact Hi0]. destruct (sh_eqs _ _ HSa) as (Na & _ & _ & _ & La & _). destruct (sh_eqs _ _ HSx) as (_ & _ & _ & Ex & Lx & _).
    split; [exact Da0|]. exists x, path. split; [exact Dx0|]. split; [congruence|]. split; [congruence|]. unfold MayBeCalled in *. rewrite Na in Hm. exact Hm.
  - intros e' De. destruct (shuf_any ps ps' HR e' De) as (e & De0 & HSe). destruct (sh_eqs _ _ HSe) as (_ & _ & _ & -> & -> & ->). exact (HE e De0).
  - intros sibs' e' G He'. destruct (sh_group ps ps' HR (fun s x G H => proj1 (HG s x G H)) _ G) as (sibs & G0 & HS). destruct (reordered_from _ _ _ _ HS He') as (e & He & HSe). destruct (HG sibs e G0 He) as (K1 & K2 & K3).
    split; [|split].
    + destruct K1 as (ks & HK). destruct (sh_content _ _ HS _ _ HK _ HSe) as (ks' & HK' & _). eauto.
    + intros Hl. apply (sh_dim_rules _ _ HS e); [apply K2; destruct (sh_eqs _ _ HSe) as (_ & _ & _ & _ & <- & _); exact Hl|exact HSe].
    + intros f' ->. inversion HSe as [| |f f1 HSf|]; subst. apply (sh_field_rules _ _ HS f); [now apply K3|exact HSf].
Qed.

(** ** What the rules give *)
Section Sib.
  Context (ps : list svd_periph) (HRu : SiblingRules ps).
  Lemma sr_content sibs e : Group ps sibs -> In e sibs -> exists ks, Content sibs e ks.
  Proof. intros G H. exact (proj1 (proj2 (proj2 (proj2 HRu)) sibs e G H)). Qed.
  Lemma sr_dims sibs e : Group ps sibs -> In e sibs -> level_of e <> LEnum -> DimRulesAt sibs e.
  Proof. intros G H. exact (proj1 (proj2 (proj2 (proj2 (proj2 HRu)) sibs e G H))). Qed.
  Lemma sr_quiet : QuietBases ps.
  Proof. intros a e Ha Hi _. exact (proj1 (proj2 HRu) a e Ha Hi). Qed.
  Lemma sr_evc sibs c : Group ps sibs -> In (PaEvc c) sibs -> sevc_derived c = None.
  Proof. intros G H. exact (proj1 (proj1 (proj2 (proj2 HRu)) _ (group_declared ps sibs G _ H)) eq_refl). Qed.
  Lemma sr_inst sibs x kb vs tv v e b path : Group ps sibs -> In x sibs -> Elab ps sibs x kb vs (Some tv) -> In v vs -> SiblingBase sibs e b -> derived_of e = Some path -> level_of x = level_of e -> processed_name v <> path.
  Proof. intros G Hx HEl Hv Hb Hd Hl E. destruct (known ps sr_content sr_dims _ _ _ _ _ HEl G Hx) as (_ & K & _). apply (sib_inst sibs e b path x Hb Hd Hx Hl). rewrite <- E. exact (K tv eq_refl v Hv). Qed.
  Lemma sr_elab_content sc e ks vs tv : Group ps sc -> In e sc -> Elab ps sc e ks vs tv -> Content sc e ks.
  Proof. exact (elab_content ps sr_content sr_inst sc e ks vs tv). Qed.
  Lemma sr_fine sc e bv : Group ps sc -> In e sc -> level_of e <> LEnum -> Takes dims_of sc e (eff_dim e bv) -> Takes index_of_ sc e (eff_index e bv) -> IndexFine e bv.
  Proof.
    intros G He Hl T1 T2 Hp. destruct (sr_dims sc e G He Hl) as (d & _ & _ & [[K _]|(n & Tn & _ & [(K & _)|(_ & _ & _ & _ & ix & l & Ti & HI & HL)])]); [contradiction|now left|right].
    intros m Em. rewrite Em in T1. assert (X := takes_fun _ _ _ _ T1 _ Tn). injection X as <-. exists l. rewrite (takes_fun _ _ _ _ Ti _ T2). auto.
  Qed.
  (** a derived element: its base, and the value it takes over *)
  Lemma elab_base sc e ks vs tv b : Elab ps sc e ks vs tv -> Group ps sc -> In e sc -> SiblingBase sc e b ->
    exists kb vsb tvb bv, ks = kids_of e ++ kb /\ Elab ps sc b kb vsb tvb /\ val_of vsb tvb bv /\ Described e (Some bv) vs tv /\ IndexFine e (Some bv).
  Proof.
    intros HEl G He Hb. inversion HEl as [? ? ? ? Hd D|? ? path sb eb kb vsb tvb bv ? ? Hd _ Hl Hsc HEb Hbv Hnm D]; subst; [destruct Hb as (path & l1 & l2 & K & _); congruence|].
    destruct (sib_path sc e b path Hb Hd) as [Hbn Hs]. destruct (Hsc Hs) as [-> Hin]. assert (Hpe : path_end path = path) by (unfold path_end; rewrite Hs; reflexivity). rewrite Hpe in Hnm.
    destruct (known ps sr_content sr_dims _ _ _ _ _ HEb G Hin) as (I1 & I2 & _). destruct (elab_described _ _ _ _ _ _ HEb) as (bv0 & Db).
    assert (Hval : val_of vsb tvb bv).
    { destruct tvb as [t|]; cbn.
      - destruct Hbv as [Hbv|Hbv]; [|now injection Hbv]. exfalso. apply (sib_inst sc e b path eb Hb Hd Hin Hl). rewrite <- Hnm. exact (I2 t eq_refl bv Hbv).
      - destruct Hbv as [Hbv|Hbv]; [|discriminate]. inversion Db; subst. destruct Hbv as [->|[]]. reflexivity. }
    assert (eb = b). { apply (sib_name sc e b path); auto. rewrite <- Hnm. symmetry. exact (described_name _ _ _ _ _ Db Hval). } subst eb. destruct (I1 bv Hval) as (B1 & B2 & _).
    exists kb, vsb, tvb, bv. split; [reflexivity|]. split; [exact HEb|]. split; [exact Hval|]. split; [exact D|]. apply (sr_fine sc e (Some bv) G He (described_level _ _ _ _ D)).
    - exact (takes_base dims_of sc e b _ Hb B1).
    - exact (takes_base index_of_ sc e b _ Hb B2).
  Qed.
  Lemma elab_plain sc e ks vs tv : Elab ps sc e ks vs tv -> Group ps sc -> In e sc -> derived_of e = None -> ks = kids_of e /\ Described e None vs tv /\ IndexFine e None.
  Proof.
    intros HEl G He Hd. apply elab_underived in HEl as [-> D]; [|exact Hd]. split; [reflexivity|]. split; [exact D|]. apply (sr_fine sc e None G He (described_level _ _ _ _ D)); [exact (takes_own dims_of _ _ Hd)|exact (takes_own index_of_ _ _ Hd)].
  Qed.
End Sib.

Lemma heads_val vs tv vs' tv' bv bv' : Forall2 Head vs vs' -> HeadO tv tv' -> val_of vs tv bv -> val_of vs' tv' bv' -> Head bv bv'.
Proof.
  intros H HT V V'. destruct tv as [t|], tv' as [t'|]; cbn in HT, V, V'; try contradiction; [now subst|]. subst. now inversion H.
Qed.

Section Both.
  Context (ps ps' : list svd_periph) (HRu : SiblingRules ps) (HRu' : SiblingRules ps').
  Lemma elab_same sibs sibs' : Group ps sibs -> Group ps' sibs' -> Reordered Sh sibs sibs' -> forall e ks0, Content sibs e ks0 ->
    forall e' ks vs tv ks' vs' tv', In e sibs -> In e' sibs' -> Sh e e' -> Elab ps sibs e ks vs tv -> Elab ps' sibs' e' ks' vs' tv' ->
    Reordered Sh ks ks' /\ Forall2 Head vs vs' /\ HeadO tv tv'.
  Proof.
    intros G G' HR e ks0 HC. induction HC as [e Hd|e b kb0 Hb HC IH]; intros e' ks vs tv ks' vs' tv' He He' HS HE HE'; destruct (sh_eqs _ _ HS) as (_ & _ & _ & Ed & _); assert (HK := sh_kids _ _ HS).
    - destruct (elab_plain ps HRu _ _ _ _ _ HE G He Hd) as (-> & D & HI). destruct (elab_plain ps' HRu' _ _ _ _ _ HE' G' He') as (-> & D' & _); [congruence|].
      split; [exact HK|]. apply (shell_described e e') in D'; [|apply sh_shell; [exact HS|exact (described_level _ _ _ _ D)]]. exact (described_fun e None None _ _ _ _ Logic.I HI D D').
    - destruct (sh_base sibs sibs' HR e b e' Hb HS) as (b' & Hb' & HSb).
      destruct (elab_base ps HRu _ _ _ _ _ b HE G He Hb) as (kb & vsb & tvb & bv & -> & HEb & Hv & D & HI). destruct (elab_base ps' HRu' _ _ _ _ _ b' HE' G' He' Hb') as (kb' & vsb' & tvb' & bv' & -> & HEb' & Hv' & D' & _).
      destruct (IH b' _ _ _ _ _ _ (sib_in _ _ _ Hb) (sib_in _ _ _ Hb') HSb HEb HEb') as (I1 & I2 & I3).
      split; [now apply reordered_app|]. apply (shell_described e e') in D'; [|apply sh_shell; [exact HS|exact (described_level _ _ _ _ D)]].
      apply (described_fun e (Some bv) (Some bv') _ _ _ _); auto. exact (heads_val _ _ _ _ _ _ I2 I3 Hv Hv').
  Qed.

  (** ** The values with their children *)
  Notation O := (Outs (QuietBases ps) (Elab ps) (EffEvc ps)).
  Notation O' := (Outs (QuietBases ps') (Elab ps') (EffEvc ps')).
  Notation Fi := (Filled (QuietBases ps) (Elab ps) (EffEvc ps)).
  Notation Fi' := (Filled (QuietBases ps') (Elab ps') (EffEvc ps')).
  Definition FillSame (o : processed) : Prop := forall single ctx ks ks' v v' o', Group ps ks -> Group ps' ks' -> Reordered Sh ks ks' -> Head v v' ->
    Fi single ctx ks v o -> Fi' single ctx ks' v' o' -> SameP o o'.
  Lemma forall2_head2 (F F' : processed -> processed -> Prop) vs vs' os os' : Forall2 Head vs vs' -> Forall2 F vs os -> Forall2 F' vs' os' ->
    (forall v v' o o', In o os -> Head v v' -> F v o -> F' v' o' -> SameP o o') -> Forall2 SameP os os'.
  Proof.
    intros H. revert os os'. induction H as [|v v' vs vs' Hv HF IH]; intros os os' H1 H2 HK; inversion H1; inversion H2; subst; constructor; [eapply HK; eauto; now left|]. apply IH; auto. intros a a' o o' Ha. apply HK. now right.
  Qed.
  Lemma outs_same ctx sibs sibs' e e' os os' : (forall o, In o os -> FillSame o) -> Group ps sibs -> Group ps' sibs' -> Reordered Sh sibs sibs' -> In e sibs -> In e' sibs' -> Sh e e' ->
    O ctx sibs e os -> O' ctx sibs' e' os' -> Forall2 SameP os os'.
  Proof.
    intros HF G G' HR He He' HS H H'. inversion H as [? ? ? ks vs tv ? HE F]; inversion H' as [? ? ? ks' vs' tv' ? HE' F']; subst.
    assert (HC := sr_elab_content ps HRu _ _ _ _ _ G He HE). assert (HC' := sr_elab_content ps' HRu' _ _ _ _ _ G' He' HE').
    destruct (elab_same sibs sibs' G G' HR e ks HC e' _ _ _ _ _ _ He He' HS HE HE') as (HK & HH & HT). assert (ET : is_some tv' = is_some tv) by (destruct tv, tv'; cbn in HT; tauto). rewrite ET in F'.
    eapply forall2_head2; [exact HH|exact F|exact F'|]. cbn beta. intros v v' o o' Ho Hvv Fv Fv'. exact (HF o Ho _ _ _ _ _ _ _ (Gp_in _ _ _ _ G He HC) (Gp_in _ _ _ _ G' He' HC') HK Hvv Fv Fv').
  Qed.
  Lemma reordered_in_r {A B} (R : A -> B -> Prop) l l' : Reordered R l l' -> Reordered (fun x y => R x y /\ In y l') l l'.
  Proof.
    intros (m & P & F). exists m. split; [exact P|]. clear P. assert (K : forall t, incl l' t -> Forall2 (fun x y => R x y /\ In y t) m l'); [|exact (K l' (incl_refl _))].
    intros t. induction F as [|a b m l' Hab F IH]; intros HI; constructor; [split; [exact Hab|apply HI; now left]|]. apply IH. intros z Hz. apply HI. now right.
  Qed.
  Lemma forall2_all {A B} (R : A -> list B -> Prop) (P : B -> Prop) l m : Forall2 R l m -> (forall y, In y (concat m) -> P y) -> Forall2 (fun x ys => R x ys /\ forall y, In y ys -> P y) l m.
  Proof.
    induction 1 as [|x ys l m Hx HF IH]; intros HP; constructor; [split; [exact Hx|intros y Hy; apply HP; cbn; apply in_or_app; now left]|]. apply IH. intros y Hy. apply HP. cbn. apply in_or_app. now right.
  Qed.
  Lemma all_same ctx ks ks' oss oss' : (forall o, In o (concat oss) -> FillSame o) -> Group ps ks -> Group ps' ks' -> Reordered Sh ks ks' ->
    Forall2 (O ctx ks) ks oss -> Forall2 (O' ctx ks') ks' oss' -> Reordered SameP (concat oss) (concat oss').
  Proof.
    intros HF G G' HR H H'. apply forall2_all with (P := FillSame) in H; [|exact HF].
    eapply (kids_same (fun e e' => Sh e e' /\ In e' ks')); [exact (reordered_in_r _ _ _ HR)|exact H|exact H'|]. cbn beta. intros e e' os os' He [HS He'] [A1 A2] A3. exact (outs_same ctx ks ks' e e' os os' A2 G G' HR He He' HS A1 A3).
  Qed.
  Lemma fill_field f : FillSame (PrFld f).
  Proof.
    intros single ctx ks ks' v v' o' G G' HR Hvv F F'. inversion F as [s c k g es ics cs Ek Fe Pe Ue| | | | |]; subst. destruct v' as [y|[y|y ys]|y]; try (cbn in Hvv; contradiction). destruct Hvv as (E1 & E2 & E3).
    inversion F' as [s' c' k' g' es' ics' cs' Ek' Fe' Pe' Ue'| | | | |]; subst. destruct (sh_evcs es _ HR) as (es1 & E & P). apply map_inj in E; [|intros; congruence]. subst es1.
    rewrite E1 in Fe'. apply containers_fun in Fe; [|intros c0 Hc0; apply (sr_evc ps HRu _ _ G), in_map, Hc0]. apply containers_fun in Fe'; [|intros c0 Hc0; apply (sr_evc ps' HRu' _ _ G'), in_map, Hc0].
    destruct (ExpandFinal.Forall2_perm _ _ _ P _ Fe) as (k & K1 & K2). assert (k = ics') as ->. { eapply forall2_fun; [|exact K1|exact Fe']. intros a b b' (w1 & X1) (w2 & X2). rewrite X1 in X2. now injection X2. }
    cbn [SameP]. unfold SameF. cbn [if_b if_access if_evcs]. repeat split; auto. eapply Permutation_trans; [apply Permutation_sym, Pe|]. eapply Permutation_trans; [exact K2|exact Pe'].
  Qed.
  Lemma sizes_same (single : bool) ctx s s' xs xs' : Reordered SameRc xs xs' -> (QuietBases ps \/ single = true \/ Forall has_size xs -> s = largest ctx xs) -> (QuietBases ps' \/ single = true \/ Forall has_size xs' -> s' = largest ctx xs') -> s' = s.
  Proof. intros HO Hs Hs'. rewrite (Hs (or_introl (sr_quiet ps HRu))), (Hs' (or_introl (sr_quiet ps' HRu'))). exact (largest_same ctx _ _ HO). Qed.
  Lemma fill_rc x : FillSame (PrRc x).
  Proof.
    induction x as [r|c l IH] using irc_ind'; intros single ctx ks ks' v v' o' G G' HR Hvv F F'.
    - inversion F as [|? ? ? q oss fs F1 F2 F3| | | |]; subst. destruct v' as [y|[y|y ys]|y]; try (cbn in Hvv; contradiction). destruct Hvv as (E1 & E2 & E3).
      inversion F' as [|? ? ? ? oss' fs' F1' F2' F3'| | | |]; subst. cbn [SameP].
      assert (HO : Reordered SameF fs fs').
      { apply (reordered_out PrFld SameF (concat oss) (concat oss')); auto. apply (all_same ctx ks ks' oss oss'); auto. intros o Ho. apply (Permutation_in _ F2) in Ho. apply in_map_iff in Ho as (f & <- & _). apply fill_field. }
      destruct HO as (m & M1 & M2). apply (Same_reg _ _ m); auto.
    - rewrite Forall_forall in IH. inversion F as [| |? ? ? c0 l0 oss xs s N1 F1 F2 F3 F4|? ? c0 l0| |]; subst; (destruct v' as [y|[y|y ys]|y]; try (cbn in Hvv; contradiction); destruct Hvv as (E1 & E2 & E3)).
      + assert (N1' : ks' <> []) by (intros ->; apply N1; apply (proj2 (reordered_nil Sh _ _ HR)); reflexivity). inversion F' as [| |? ? ? ? ? oss' xs' s' N2' F1' F2' F3' F4'| | |]; subst; [|congruence].
        rewrite E2 in F1', F4'. assert (HO : Reordered SameRc l xs').
        { apply (reordered_out PrRc SameRc (concat oss) (concat oss')); auto. eapply all_same; [|exact G|exact G'|exact HR|exact F1|exact F1']. intros o Ho. apply (Permutation_in _ F2) in Ho. apply in_map_iff in Ho as (z & <- & Hz). exact (IH z Hz). }
        rewrite (sizes_same _ _ _ _ _ _ HO F4 F4'). destruct HO as (m & M1 & M2). cbn [SameP]. apply (Same_clu _ _ _ _ m); cbn [ic_b ic_props]; auto. now rewrite E2.
      + assert (ks' = []) as -> by (apply (proj1 (reordered_nil Sh _ _ HR)); reflexivity). inversion F'; subst; [congruence|]. cbn [SameP]. apply (Same_clu _ _ _ _ []); auto.
  Qed.
  Lemma fill_per p : FillSame (PrPer p).
  Proof.
    intros single ctx ks ks' v v' o' G G' HR Hvv F F'. inversion F as [| | | |? ? ? q oss xs s N1 F1 F2 F3 F4|]; subst; (destruct v' as [y|[y|y ys]|y]; try (cbn in Hvv; contradiction); destruct Hvv as (E1 & E2 & E3)).
    - assert (N1' : ks' <> []) by (intros ->; apply N1; apply (proj2 (reordered_nil Sh _ _ HR)); reflexivity). inversion F' as [| | | |? ? ? ? oss' xs' s' N2' F1' F2' F3' F4'|]; subst; [|congruence].
      rewrite E2 in F1', F4'. assert (HO : Reordered SameRc xs xs').
      { apply (reordered_out PrRc SameRc (concat oss) (concat oss')); auto. eapply all_same; [|exact G|exact G'|exact HR|exact F1|exact F1']. intros o Ho. apply (Permutation_in _ F2) in Ho. apply in_map_iff in Ho as (z & <- & Hz). apply fill_rc. }
      rewrite (sizes_same _ _ _ _ _ _ HO F4 F4'). cbn [SameP]. unfold SamePer. cbn [ip_b ip_props ip_rcs]. rewrite E1, E2. auto.
    - assert (ks' = []) as -> by (apply (proj1 (reordered_nil Sh _ _ HR)); reflexivity). inversion F'; subst; [congruence|]. cbn [SameP]. unfold SamePer. cbn [ip_b ip_props ip_rcs]. rewrite E1, E2. split; [reflexivity|]. split; [reflexivity|]. exists []. split; constructor.
  Qed.
  Theorem expansion_same_deep l l' : Reordered ShufPer ps ps' -> Expansion ps l -> Expansion ps' l' -> Reordered SamePer l l'.
  Proof.
    intros HR (oss & H1 & H2 & _) (oss' & H1' & H2' & _). apply (reordered_out PrPer SamePer (concat oss) (concat oss')); auto.
    eapply all_same; [|constructor|constructor|exact (sh_top0 _ _ HR)|exact H1|exact H1']. intros o _. destruct o as [p|x|f]; [apply fill_per|apply fill_rc|apply fill_field].
  Qed.
End Both.
