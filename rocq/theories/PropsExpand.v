(** * PropsExpand: the result of processing is the expansion of the description (C38, C46; device-level parts of C05, C10, C12, C32, C35). *)
From Verif Require Import Base PyStr PyInt Types DimModel EnumModel ElemModel FinalModel ResolveModel ProcessModel SpecProcess SpecDevice SpecImage SpecDim SpecElem SpecDeclared SpecExpand.
From Verif Require Import ResolveInv DescribeFacts ExpandInv ExpandFinal ImageFacts PropsDim PropsDevice Samples.

(** Derived clusters may occur anywhere but inside of a base; inside of a base peripheral if derived peripherals state names of peripherals *)
Definition plain_bases (d : svd_device) : Prop := PlainBases (sdv_periphs d).
(** no cluster of the description states derivedFrom *)
Definition no_derived_clusters (d : svd_device) : Prop := forall p c l, In p (sdv_periphs d) -> DeclaredRc (sp_rcs p) (SClu c l) -> sc_derived c = None.
(** no element of the description states derivedFrom *)
Definition no_derivation (d : svd_device) : Prop :=
  (forall p, In p (sdv_periphs d) -> sp_derived p = None) /\ no_derived_clusters d /\
  (forall p r, In p (sdv_periphs d) -> DeclaredRc (sp_rcs p) (SReg r) -> sr_derived r = None) /\
  (forall f, DeclaredField (sdv_periphs d) f -> sf_derived f = None) /\ (forall e, DeclaredEvc (sdv_periphs d) e -> sevc_derived e = None).

Lemma kids_declared ps e k : Declared ps e -> In k (kids_of e) -> Declared ps k.
Proof.
  destruct e as [|p|[r|c ch]|f|e]; cbn; intros He Hk; try contradiction; apply in_map_iff in Hk as (x & <- & Hx); cbn.
  - exists p. split; [exact He|now apply DR_here].
  - destruct He as (p & Hp & Hr). exists p, r. auto.
  - destruct He as (p & Hp & Hr). exists p. split; [exact Hp|]. clear - Hr Hx. revert Hr. generalize (sp_rcs p). intros k H. remember (SClu c ch) as y. induction H as [k y Hy|k c' ch' y Hy H IH]; subst; [eapply DR_deep; [exact Hy|now apply DR_here]|eapply DR_deep; eauto].
  - exists f. auto.
Qed.
Lemma inside_declared ps a e : Declared ps a -> Inside a e -> Declared ps e.
Proof. intros Ha H. induction H as [e H|x e _ IH H]; [exact (kids_declared _ _ _ Ha H)|exact (kids_declared _ _ _ IH H)]. Qed.
Lemma no_derived_clusters_plain d : no_derived_clusters d -> plain_bases d.
Proof.
  intros ND. assert (K : forall e, Declared (sdv_periphs d) e -> ~ derived_cluster e). { intros e He [Hl Hd]. destruct e as [|p|[r|c ch]|f|e]; try discriminate. destruct He as (p & Hp & Hc). exact (Hd (ND p c ch Hp Hc)). }
  split; [intros a e [Ha _] _ Hi; exact (K e (inside_declared _ _ _ Ha Hi))|right]. intros a e [Ha _] Hi. exact (K e (inside_declared _ _ _ Ha Hi)).
Qed.

(** ** C46 *)
Lemma resolves_expansion d ws i : plain_bases d -> Resolves d ws i -> idv_b i = process_device_base d /\ Expansion (sdv_periphs d) (idv_periphs i).
Proof. intros PB (fuel & l & H & ->). split; [reflexivity|]. eapply resolve_expansion; [exact PB|exact H]. Qed.
(** An accepted description with plain bases is expanded as SpecExpand says; the processed device is the image of the expansion. *)
Theorem C46_expansion : forall d ws dev, plain_bases d -> Processes d ws dev ->
  exists l w1 w2, Expansion (sdv_periphs d) l /\ DevImage w2 (mk_idev (process_device_base d) l) dev /\ ws = w1 ++ w2.
Proof.
  intros d ws dev ND H. destruct (processes_inv _ _ _ H) as (i & w1 & w2 & HR & Hf & ->). destruct (resolves_expansion _ _ _ ND HR) as [E1 E2].
  exists (idv_periphs i), w1, w2. split; [exact E2|]. split; [|reflexivity]. rewrite <- E1. apply finalize_image in Hf. destruct i. exact Hf.
Qed.

(** Every element of the description is there, and nothing else. *)
(** The effective siblings of an element: the peripherals, or the children - own and inherited - of some element. *)
Definition Siblings (ps : list svd_periph) (sc : list parsed) : Prop :=
  sc = map PaPer ps \/ exists s0 e0 vs tv, Declared ps e0 /\ Elab ps s0 e0 sc vs tv.
Section Occurs.
  Context (ps : list svd_periph) (l : list iper).
  Notation O := (Outs (QuietBases ps) (Elab ps) (EffEvc ps)).
  Notation F := (Filled (QuietBases ps) (Elab ps) (EffEvc ps)).
  Context (oss0 : list (list processed)) (HO : Forall2 (O 32 (map PaPer ps)) (map PaPer ps) oss0) (HP : Permutation (concat oss0) (map PrPer l)).

  Lemma elab_declared sc e ks vs tv : Elab ps sc e ks vs tv -> Declared ps e -> forall k, In k ks -> Declared ps k.
  Proof.
    induction 1 as [sc e vs tv _ _|sc e path sb eb kb vsb tvb bv vs tv _ Hb _ _ _ IH _ _ _]; intros He k Hk; [now apply (kids_declared ps e)|]. apply in_app_iff in Hk as [Hk|Hk]; [now apply (kids_declared ps e)|]. now apply IH.
  Qed.
  Lemma elab_ne sc e ks vs tv : Elab ps sc e ks vs tv -> vs <> [] /\ ~ is_evc e /\ incl (kids_of e) ks.
  Proof.
    assert (K : forall bv, Described e bv vs tv -> vs <> [] /\ ~ is_evc e).
    { intros bv H. split; [inversion H; subst; [discriminate|]; intros ->; cbn in *; lia|]. inversion H; subst; destruct e; auto; match goal with H : Attributes (PaEvc _) _ _ |- _ => destruct H end. }
    intros H. destruct H as [sc e vs tv _ HD|sc e path sb eb kb vsb tvb bv vs tv _ _ _ _ _ _ _ HD]; destruct (K _ HD); repeat split; auto; intros x Hx; [exact Hx|apply in_app_iff; now left].
  Qed.
  Lemma forall2_in {A B} (R : A -> B -> Prop) xs ys : Forall2 R xs ys -> (forall y, In y ys -> exists x, In x xs /\ R x y) /\ (forall x, In x xs -> exists y, In y ys /\ R x y).
  Proof.
    induction 1 as [|x y xs ys H HF [IH1 IH2]]; [split; intros ? []|]. split.
    - intros z [<-|Hz]; [exists x; split; [now left|exact H]|]. destruct (IH1 z Hz) as (u & K1 & K2). exists u. split; [now right|exact K2].
    - intros z [<-|Hz]; [exists y; split; [now left|exact H]|]. destruct (IH2 z Hz) as (u & K1 & K2). exists u. split; [now right|exact K2].
  Qed.
  (** what lies below a finished value are the values of the children *)
  Lemma below_filled b ctx ks v o : F b ctx ks v o -> forall k, In k ks -> ~ is_evc k -> exists c os, O c ks k os /\ (Occ l o -> forall x, In x os -> Occ l x).
  Proof.
    intros H k Hk He. destruct H as [b ctx ks f es ics cs K1 K2 K3 K4|b ctx ks r oss fs K1 K2 K3|b ctx ks c ll oss xs s K1 K2 K3 K4 K5|b ctx c ll|b ctx ks p oss xs s K1 K2 K3 K4 K5|b ctx p]; try destruct Hk.
    - subst ks. apply in_map_iff in Hk as (x & <- & _). destruct He. exact I.
    - destruct (proj2 (forall2_in _ _ _ K1) k Hk) as (os & L1 & L2). exists ctx, os. split; [exact L2|]. intros Ho x Hx. assert (Hc : In x (concat oss)) by (apply in_concat; eauto). eapply Permutation_in in Hc; [|exact K2]. apply in_map_iff in Hc as (f & <- & Hf). eapply Occ_fld; [exact Ho|exact Hf].
    - destruct (proj2 (forall2_in _ _ _ K2) k Hk) as (os & L1 & L2). eexists. exists os. split; [exact L2|]. intros Ho x Hx. assert (Hc : In x (concat oss)) by (apply in_concat; eauto). eapply Permutation_in in Hc; [|exact K3]. apply in_map_iff in Hc as (f & <- & Hf). eapply Occ_deep; [exact Ho|exact Hf].
    - destruct (proj2 (forall2_in _ _ _ K2) k Hk) as (os & L1 & L2). eexists. exists os. split; [exact L2|]. intros Ho x Hx. assert (Hc : In x (concat oss)) by (apply in_concat; eauto). eapply Permutation_in in Hc; [|exact K3]. apply in_map_iff in Hc as (f & <- & Hf).
      inversion Ho as [q Hq| | |]; subst. eapply Occ_top; [exact Hq|exact Hf].
  Qed.
  Definition There (e : parsed) : Prop := exists ctx sc os, O ctx sc e os /\ (Declared ps e /\ In e sc /\ Siblings ps sc) /\ os <> [] /\ forall o, In o os -> Occ l o.
  Lemma outs_ne ctx sc e os : O ctx sc e os -> os <> [].
  Proof. intros H. inversion H as [? ? ? ks vs tv ? H1 H2]; subst. destruct (elab_ne _ _ _ _ _ H1) as [K _]. destruct H2; [contradiction|discriminate]. Qed.
  Lemma there_kid e k : There e -> In k (kids_of e) -> ~ is_evc k -> There k.
  Proof.
    intros (ctx & sc & os & H & (HDe & _) & Hne & Hocc) Hk Hev. inversion H as [? ? ? ks vs tv ? H1 H2]; subst. destruct (elab_ne _ _ _ _ _ H1) as (_ & _ & Hi). destruct H2 as [|v o vs os Hv _]; [contradiction|].
    destruct (below_filled _ _ _ _ _ Hv k (Hi _ Hk) Hev) as (c & os' & K1 & K2). exists c, ks, os'. split; [exact K1|]. split; [split; [exact (elab_declared _ _ _ _ _ H1 HDe k (Hi _ Hk))|split; [exact (Hi _ Hk)|right; eauto 6]]|]. split; [exact (outs_ne _ _ _ _ K1)|]. apply K2. apply Hocc. now left.
  Qed.
  Lemma there_per p : In p ps -> There (PaPer p).
  Proof.
    intros Hp. destruct (proj2 (forall2_in _ _ _ HO) (PaPer p)) as (os & K1 & K2); [now apply in_map|]. exists 32, (map PaPer ps), os. split; [exact K2|]. split; [split; [exact Hp|split; [now apply in_map|now left]]|]. split; [exact (outs_ne _ _ _ _ K2)|].
    intros o Ho. assert (Hc : In o (concat oss0)) by (apply in_concat; eauto). eapply Permutation_in in Hc; [|exact HP]. apply in_map_iff in Hc as (q & <- & Hq). now apply Occ_per.
  Qed.
  Lemma there_rc k x : DeclaredRc k x -> (forall y, In y k -> There (PaRc y)) -> There (PaRc x).
  Proof. induction 1 as [k x Hx|k c ch x Hc H IH]; intros HT; [auto|]. apply IH. intros y Hy. apply (there_kid _ _ (HT _ Hc)); [cbn; now apply in_map|intros []]. Qed.
  Lemma there_all e : Declared ps e -> ~ is_evc e -> There e.
  Proof.
    assert (HR : forall p x, In p ps -> DeclaredRc (sp_rcs p) x -> There (PaRc x)).
    { intros p x Hp Hx. apply (there_rc _ _ Hx). intros y Hy. apply (there_kid (PaPer p)); [now apply there_per|cbn; now apply in_map|intros []]. }
    destruct e as [|p|x|f|e]; cbn; intros He Hev; [destruct He|now apply there_per| | |destruct Hev; exact I].
    - destruct He as (p & Hp & Hx). eauto.
    - destruct He as (p & r & Hp & Hr & Hf). apply (there_kid (PaRc (SReg r))); [eauto|cbn; now apply in_map|intros []].
  Qed.
  Definition FromDecl (o : processed) : Prop := exists ctx sc e ks vs tv v, (Declared ps e /\ In e sc /\ Siblings ps sc) /\ Elab ps sc e ks vs tv /\ In v vs /\ F (negb (is_some tv)) ctx ks v o.
  Lemma from_outs ctx sc e os o : Declared ps e /\ In e sc /\ Siblings ps sc -> O ctx sc e os -> In o os -> FromDecl o.
  Proof. intros He H Ho. inversion H as [? ? ? ks vs tv ? H1 H2]; subst. destruct (proj1 (forall2_in _ _ _ H2) o Ho) as (v & K1 & K2). exists ctx, sc, e, ks, vs, tv, v. auto. Qed.
  Lemma from_kids {A} (mk : A -> processed) c ks oss (xs : list A) x : (forall k, In k ks -> Declared ps k) -> Siblings ps ks -> Forall2 (O c ks) ks oss -> Permutation (concat oss) (map mk xs) -> In x xs -> FromDecl (mk x).
  Proof.
    intros Hk HSi HF HPm Hx. apply (in_map mk) in Hx. eapply Permutation_in in Hx; [|symmetry; exact HPm]. apply in_concat in Hx as (os & K1 & K2). destruct (proj1 (forall2_in _ _ _ HF) os K1) as (k & L1 & L2). exact (from_outs c ks k os _ (conj (Hk _ L1) (conj L1 HSi)) L2 K2).
  Qed.
  Lemma occ_from o : Occ l o -> FromDecl o.
  Proof.
    assert (HPer : forall p, In p l -> FromDecl (PrPer p)).
    { intros p Hp. eapply (from_kids PrPer 32 (map PaPer ps) oss0 l); eauto; [|now left]. intros k Hk. apply in_map_iff in Hk as (q & <- & Hq). exact Hq. }
    induction 1 as [p Hp|p x Hp Hx|c ch x _ IH Hx|r f _ IH Hf]; [auto| | |].
    - destruct (HPer p Hp) as (ctx & sc & e & ks & vs & tv & v & K1 & K2 & K3 & K4). assert (Hd := elab_declared _ _ _ _ _ K2 (proj1 K1)). assert (HSi : Siblings ps ks) by (right; exists sc, e, vs, tv; split; [apply K1|exact K2]).
      inversion K4 as [ | | | |b0 c0 ks0 p0 oss xs s L1 L2 L3 L4 L5|b0 c0 p0]; subst; cbn in Hx; [|destruct Hx]. eapply (from_kids PrRc); eauto.
    - destruct IH as (ctx & sc & e & ks & vs & tv & v & K1 & K2 & K3 & K4). assert (Hd := elab_declared _ _ _ _ _ K2 (proj1 K1)). assert (HSi : Siblings ps ks) by (right; exists sc, e, vs, tv; split; [apply K1|exact K2]).
      inversion K4 as [ | |b0 c0 ks0 p0 ll oss xs s L1 L2 L3 L4 L5|b0 c0 p0 ll| |]; subst; cbn in Hx; [|destruct Hx]. eapply (from_kids PrRc); eauto.
    - destruct IH as (ctx & sc & e & ks & vs & tv & v & K1 & K2 & K3 & K4). assert (Hd := elab_declared _ _ _ _ _ K2 (proj1 K1)). assert (HSi : Siblings ps ks) by (right; exists sc, e, vs, tv; split; [apply K1|exact K2]).
      inversion K4 as [|b0 c0 ks0 r0 oss fs L1 L2 L3| | | |]; subst; cbn in Hf. eapply (from_kids PrFld); eauto.
  Qed.
End Occurs.
(** Every peripheral, cluster, register and field of an accepted description (with plain bases) has at least one instance, with its
    own children and those of its base below each; *)
Theorem C46_every_element : forall d ws i e, plain_bases d -> Resolves d ws i -> Declared (sdv_periphs d) e -> ~ is_evc e ->
  exists sc ks vs tv os, In e sc /\ Siblings (sdv_periphs d) sc /\ StandsFor (sdv_periphs d) (idv_periphs i) sc e ks vs tv os.
Proof.
  intros d ws i e ND HR He Hev. destruct (resolves_expansion _ _ _ ND HR) as [_ (oss & K1 & K2 & _)]. destruct (there_all _ _ _ K1 K2 e He Hev) as (ctx & sc & os & H & (_ & Hin & HSi) & _ & Ho).
  inversion H as [? ? ? ks vs tv ? H1 H2]; subst. exists sc, ks, vs, tv, os. split; [exact Hin|]. split; [exact HSi|]. split; [exact H1|]. split; [apply (elab_ne _ _ _ _ _ _ H1)|]. eauto.
Qed.
(** every instance of an element is found among the effective siblings: below each element stand its own children, as elements of the
    list of its own and inherited children; *)
Theorem C46_children_among_siblings : forall d ws i e k, plain_bases d -> Resolves d ws i -> Declared (sdv_periphs d) e -> ~ is_evc e -> In k (kids_of e) -> ~ is_evc k ->
  exists sc ks vs tv os ks' vs' tv' os', StandsFor (sdv_periphs d) (idv_periphs i) sc e ks vs tv os /\ StandsFor (sdv_periphs d) (idv_periphs i) ks k ks' vs' tv' os' /\
    incl (kids_of e) ks /\ (derived_of e = None -> ks = kids_of e).
Proof.
  intros d ws i e k ND HR He Hev Hk Hkev. destruct (resolves_expansion _ _ _ ND HR) as [_ (oss & K1 & K2 & _)]. destruct (there_all _ _ _ K1 K2 e He Hev) as (ctx & sc & os & H & _ & Hne & Ho).
  inversion H as [? ? ? ks vs tv ? H1 H2]; subst. destruct (elab_ne _ _ _ _ _ _ H1) as (Hv & _ & Hi). assert (HS : StandsFor (sdv_periphs d) (idv_periphs i) sc e ks vs tv os) by (split; [exact H1|]; split; [exact Hv|]; split; [eauto|exact Ho]).
  assert (Hv1 : exists v o, In o os /\ Filled (QuietBases (sdv_periphs d)) (Elab (sdv_periphs d)) (EffEvc (sdv_periphs d)) (negb (is_some tv)) ctx ks v o) by (destruct H2 as [|v o vs os Hvo _]; [congruence|]; exists v, o; split; [now left|exact Hvo]).
  destruct Hv1 as (v & o & Hoo & Hvo). destruct (below_filled (sdv_periphs d) (idv_periphs i) _ _ _ _ _ Hvo k (Hi _ Hk) Hkev) as (c & os' & L1 & L2).
  inversion L1 as [? ? ? ks' vs' tv' ? M1 M2]; subst. exists sc, ks, vs, tv, os, ks', vs', tv', os'. split; [exact HS|]. split; [|split; [exact Hi|]].
  - split; [exact M1|]. split; [apply (elab_ne _ _ _ _ _ _ M1)|]. split; [eauto|]. apply L2. now apply Ho.
  - intros Hd. destruct H1 as [|sc e path sb eb kb vsb tvb bv vs tv Hp]; [reflexivity|congruence].
Qed.
(** and everything in the result is an instance of an element of the description. *)
Theorem C46_nothing_invented : forall d ws i o, plain_bases d -> Resolves d ws i -> Occ (idv_periphs i) o ->
  exists sc e ks vs tv v ctx, Declared (sdv_periphs d) e /\ In e sc /\ Siblings (sdv_periphs d) sc /\ Elab (sdv_periphs d) sc e ks vs tv /\ In v vs /\
    Filled (QuietBases (sdv_periphs d)) (Elab (sdv_periphs d)) (EffEvc (sdv_periphs d)) (negb (is_some tv)) ctx ks v o.
Proof.
  intros d ws i o ND HR Ho. destruct (resolves_expansion _ _ _ ND HR) as [_ (oss & K1 & K2 & _)]. destruct (occ_from _ _ _ K1 K2 o Ho) as (ctx & sc & e & ks & vs & tv & v & (L1 & La & Lb) & L2 & L3 & L4). exists sc, e, ks, vs, tv, v, ctx. auto 10.
Qed.
(** ** C32, C35: derivedFrom of a peripheral, register or field is never ignored and taken from a processed base. *)
Theorem C32_C35_derivation_applied_partial : forall d ws i e path, plain_bases d -> Resolves d ws i -> Declared (sdv_periphs d) e -> ~ is_evc e -> derived_of e = Some path ->
  exists sc sb eb kb vsb tvb bv vs tv os, In e sc /\ Siblings (sdv_periphs d) sc /\ Declared (sdv_periphs d) eb /\ level_of eb = level_of e /\
    (split_on "." path = [path] -> sb = sc /\ In eb sc) /\ Elab (sdv_periphs d) sb eb kb vsb tvb /\
    (In bv vsb \/ tvb = Some bv) /\ processed_name bv = path_end path /\ Described e (Some bv) vs tv /\ StandsFor (sdv_periphs d) (idv_periphs i) sc e (kids_of e ++ kb) vs tv os.
Proof.
  intros d ws i e path ND HR He Hev Hp. destruct (C46_every_element d ws i e ND HR He Hev) as (sc & ks & vs & tv & os & Hin & HSi & HS). assert (HS' := HS). destruct HS' as (HE & _).
  destruct HE as [sc e vs tv HE _|sc e path' sb eb kb vsb tvb bv vs tv E1 E2 E3 E8 E4 E5 E6 E7]; [congruence|]. rewrite Hp in E1. injection E1 as <-. exists sc, sb, eb, kb, vsb, tvb, bv, vs, tv, os. auto 15.
Qed.

(** ** C38 *)
Section Plain.
  Context (ps : list svd_periph) (ND : forall e, Declared ps e -> derived_of e = None).
  Notation O := (Outs (QuietBases ps) (Elab ps) (EffEvc ps)).
  Notation F := (Filled (QuietBases ps) (Elab ps) (EffEvc ps)).
  Notation O' := (Outs True Plainly eq).
  Notation F' := (Filled True Plainly eq).
  Lemma elab_plain sc e ks vs tv : Declared ps e -> Elab ps sc e ks vs tv -> ks = kids_of e /\ Plainly sc e ks vs tv.
  Proof. intros He H. destruct H as [sc e vs tv _ HD|sc e path sb eb kb vsb tvb bv vs tv Hp]; [split; [|split]; auto|]. rewrite (ND e He) in Hp. discriminate. Qed.
  Lemma outs_plain e : Declared ps e -> (forall b ctx v o, F b ctx (kids_of e) v o -> F' b ctx (kids_of e) v o) -> forall ctx sc os, O ctx sc e os -> O' ctx sc e os.
  Proof.
    intros He HF ctx sc os H. inversion H as [? ? ? ks vs tv ? H1 H2]; subst. destruct (elab_plain _ _ _ _ _ He H1) as [-> HP]. eapply Outs_intro; [exact HP|]. clear - H2 HF. induction H2; constructor; auto.
  Qed.
  Lemma outs_list ks : (forall e, In e ks -> forall ctx sc os, O ctx sc e os -> O' ctx sc e os) -> forall ctx sc oss, Forall2 (O ctx sc) ks oss -> Forall2 (O' ctx sc) ks oss.
  Proof. intros H ctx sc oss HF. induction HF as [|e os ks oss H1 HF IH]; constructor; [apply H; [now left|exact H1]|]. apply IH. intros x Hx. apply H. now right. Qed.
  Lemma no_derived_quiet : QuietBases ps.
  Proof. intros a e [Ha _] Hi _. exact (ND e (inside_declared _ _ _ Ha Hi)). Qed.
  Lemma filled_plain ks b ctx v o : (forall e, In e ks -> forall ctx sc os, O ctx sc e os -> O' ctx sc e os) -> (forall e, In (PaEvc e) ks -> sevc_derived e = None) -> F b ctx ks v o -> F' b ctx ks v o.
  Proof.
    intros H HE K. destruct K as [b ctx ks f es ics cs K1 K2 K3 K4|b ctx ks r oss fs K1 K2 K3|b ctx ks c l oss xs s K1 K2 K3 K4 K5|b ctx c l|b ctx ks p oss xs s K1 K2 K3 K4 K5|b ctx p].
    - eapply Fill_fld; [exact K1| |exact K3|exact K4]. subst ks. assert (Hes : forall e, In e es -> sevc_derived e = None) by (intros e He; apply HE; now apply in_map). clear - K2 Hes.
      induction K2 as [|e c es ics (e' & w & L1 & L2) K2 IH]; constructor; [|apply IH; intros x Hx; apply Hes; now right]. exists e', w. split; [|exact L2]. destruct L1 as [e L1|e path eb e' L1]; [reflexivity|]. rewrite Hes in L1; [discriminate|now left].
    - eapply Fill_reg; eauto using outs_list.
    - eapply Fill_clu; eauto using outs_list. intros _. apply K5. left. exact no_derived_quiet.
    - apply Fill_clu_leaf.
    - eapply Fill_per; eauto using outs_list. intros _. apply K5. left. exact no_derived_quiet.
    - apply Fill_per_leaf.
  Qed.
  Lemma plain_field f ctx sc os : DeclaredField ps f -> O ctx sc (PaFld f) os -> O' ctx sc (PaFld f) os.
  Proof.
    intros Hf. apply outs_plain; [exact Hf|]. intros b c v o. apply filled_plain; cbn.
    - intros e He. apply in_map_iff in He as (x & <- & Hx). intros c' sc' os' H. exfalso. inversion H as [? ? ? ks vs tv ? H1 _]; subst. clear - H1. inversion H1 as [? ? ? ? _ HD|? ? ? ? ? ? ? ? ? ? ? _ _ _ _ _ _ _ HD]; subst; inversion HD; subst; match goal with H : Attributes (PaEvc _) _ _ |- _ => exact H end.
    - intros e He. apply in_map_iff in He as (x & Ex & Hx). injection Ex as <-. apply (ND (PaEvc x)). exists f. auto.
  Qed.
  Lemma plain_rc x : forall p, In p ps -> DeclaredRc (sp_rcs p) x -> forall ctx sc os, O ctx sc (PaRc x) os -> O' ctx sc (PaRc x) os.
  Proof.
    induction x as [r|c l IH] using svd_rc_ind'; intros p Hp Hx; (apply outs_plain; [exists p; auto|]); intros b ctx v o; apply filled_plain; cbn; intros e He; apply in_map_iff in He as (y & Ey & Hy); try discriminate Ey; subst e.
    - intros ctx' sc' os'. apply plain_field. exists p, r. auto.
    - rewrite Forall_forall in IH. apply (IH y Hy p Hp). clear - Hx Hy. revert Hx. generalize (sp_rcs p). intros k H. remember (SClu c l) as x. induction H as [k x Hx|k c' ch x Hx H IH]; subst; [eapply DR_deep; [exact Hx|now apply DR_here]|eapply DR_deep; eauto].
  Qed.
  Lemma plain_per p : In p ps -> forall ctx sc os, O ctx sc (PaPer p) os -> O' ctx sc (PaPer p) os.
  Proof.
    intros Hp. apply outs_plain; [exact Hp|]. intros b ctx v o. apply filled_plain; cbn; intros e He; apply in_map_iff in He as (y & Ey & Hy); try discriminate Ey; subst e. apply (plain_rc y p Hp). now apply DR_here.
  Qed.
  Lemma plain_expansion l : Expansion ps l -> PlainExpansion ps l.
  Proof.
    intros (oss & H1 & H2 & H3). exists oss. split; [|auto].
    assert (Hqs : forall sc qs oss, (forall p, In p qs -> In p ps) -> Forall2 (O 32 sc) (map PaPer qs) oss -> Forall2 (O' 32 sc) (map PaPer qs) oss).
    { clear - ND. intros sc qs. induction qs as [|q qs IH]; intros oss K H; inversion H; subst; constructor; [apply plain_per; [apply K; now left|assumption]|]. apply IH; [|assumption]. intros p Hp. apply K. now right. }
    apply Hqs; auto.
  Qed.
End Plain.
(** Without derivedFrom the description is expanded as it stands: every element to its dim instances, below each of which its own children
    are expanded, in ascending order of address and name. *)
Theorem C38_plain_expansion : forall d ws dev, no_derivation d -> Processes d ws dev ->
  exists l w1 w2, PlainExpansion (sdv_periphs d) l /\ DevImage w2 (mk_idev (process_device_base d) l) dev /\ ws = w1 ++ w2.
Proof.
  intros d ws dev (N1 & N2 & N3 & N4 & N5) H. destruct (C46_expansion d ws dev (no_derived_clusters_plain d N2) H) as (l & w1 & w2 & K1 & K2 & K3). exists l, w1, w2. split; [|auto]. apply plain_expansion; [|exact K1].
  intros e He. destruct e as [|p|[r|c ch]|f|e]; cbn in *; auto; destruct He as (p & Hp & Hx); eauto.
Qed.

(** ** Examples *)
Fixpoint all_rcs (x : svd_rc) : list svd_rc := x :: match x with SClu _ l => flat_map all_rcs l | SReg _ => [] end.
Lemma declared_all k x : DeclaredRc k x -> In x (flat_map all_rcs k).
Proof.
  induction 1 as [k x Hx|k c ch x Hc _ IH]; apply in_flat_map; [exists x; split; [exact Hx|]; destruct x; now left|]. exists (SClu c ch). split; [exact Hc|]. now right.
Qed.
Definition all_of (d : svd_device) : list svd_rc := flat_map (fun p => flat_map all_rcs (sp_rcs p)) (sdv_periphs d).
Lemma declared_of d p x : In p (sdv_periphs d) -> DeclaredRc (sp_rcs p) x -> In x (all_of d).
Proof. intros Hp Hx. apply in_flat_map. exists p. split; [exact Hp|]. now apply declared_all. Qed.
Lemma no_derived_clusters_dec d : forallb (fun x => match x with SClu c _ => negb (is_some (sc_derived c)) | SReg _ => true end) (all_of d) = true -> no_derived_clusters d.
Proof.
  intros H p c l Hp Hx. rewrite forallb_forall in H. specialize (H (SClu c l) (declared_of _ _ _ Hp Hx)). cbn in H. now destruct (sc_derived c).
Qed.
(** the sample device (a derived peripheral, a derived register, a dim register, nested clusters, enumerated values) meets the hypotheses *)
Example C46_nonvacuous : no_derived_clusters sample /\ Processes sample (fst sample_result) (the_device sample_result).
Proof. split; [now apply no_derived_clusters_dec|exact sample_accepted]. Qed.
(** and its expansion is not trivial *)
Definition resolved (d : svd_device) : list iper := match snd (resolve_peripherals 20 (sdv_periphs d)) with Ok l => l | Err _ => [] end.
Example C46_nonvacuous_expansion : Expansion (sdv_periphs sample) (resolved sample) /\ map (fun p => (pb_name (ip_b p), op_size (ip_props p), length (ip_rcs p))) (resolved sample) = [("A", Some 32, 7%nat); ("B", Some 32, 7%nat)].
Proof.
  split; [|vm_compute; reflexivity]. assert (H : exists w, resolve_peripherals 20 (sdv_periphs sample) = (w, Ok (resolved sample))) by (unfold resolved; vm_compute; eauto). destruct H as [w H].
  refine (proj2 (resolves_expansion sample w (mk_idev (process_device_base sample) (resolved sample)) _ _)); [now apply no_derived_clusters_plain, no_derived_clusters_dec|]. exists 20%nat, (resolved sample). auto.
Qed.
(** an array of peripherals with an array of clusters with a list of registers with a list of fields *)
Definition dims (n inc : Z) := mk_sdim (Some n) (Some inc) None None None.
Definition plain_sample : svd_device :=
  s_dev [ s_per_dim (dims 2 4096) noprops "P[%s]" 4096
            [ SClu (mk_sclu (dims 2 32) noprops "C[%s]" None None None 16 None)
                [ s_reg_dim (dims 2 4) noprops "R%s" 0 [mk_sfield (dims 2 8) "F%s" None None None (Some 0) (Some 3) None None None None None [] None] None None;
                  s_reg_dim nodim (sized 64) "W" 8 [] None None ] ;
              s_reg "Q" 0 [] None None ] None None ].
Definition plain_result := process_device 20 plain_sample.
Example C38_nonvacuous : no_derivation plain_sample /\ Processes plain_sample (fst plain_result) (the_device plain_result) /\
  outline (the_device plain_result) =
  [("P0", [("Q", 4096); ("R0", 4112); ("R1", 4116); ("W", 4120); ("R0", 4144); ("R1", 4148); ("W", 4152)]);
   ("P1", [("Q", 8192); ("R0", 8208); ("R1", 8212); ("W", 8216); ("R0", 8240); ("R1", 8244); ("W", 8248)])].
Proof.
  split; [|split; [exists 20%nat; unfold the_device; vm_compute; reflexivity|vm_compute; reflexivity]].
  assert (HA : forall p x, In p (sdv_periphs plain_sample) -> DeclaredRc (sp_rcs p) x -> In x (all_of plain_sample)) by (intros; eapply declared_of; eassumption).
  assert (HF : forall f, DeclaredField (sdv_periphs plain_sample) f -> sf_derived f = None /\ sf_evcs f = []).
  { intros f (p & r & Hp & Hr & Hf). specialize (HA _ _ Hp Hr). cbn in HA. repeat (destruct HA as [HA|HA]; [try discriminate HA; injection HA as <-; cbn in Hf; repeat (destruct Hf as [<-|Hf]; [split; reflexivity|]); destruct Hf|]). destruct HA. }
  split; [intros p [<-|[]]; reflexivity|]. split; [now apply no_derived_clusters_dec|]. split; [|split; [intros f Hf; now apply HF|]].
  - intros p r Hp Hr. specialize (HA _ _ Hp Hr). cbn in HA. repeat (destruct HA as [HA|HA]; [try discriminate HA; injection HA as <-; reflexivity|]). destruct HA.
  - intros e (f & Hf & He). destruct (HF f Hf) as [_ K]. rewrite K in He. destruct He.
Qed.

(** ** C47 *)
(** the names of the registers and clusters, as they are nested *)
Inductive names := Nm (name : string) (l : list names).
Fixpoint rc_names (x : rc) : names := match x with Reg r => Nm (rb_name (r_b r)) [] | Clu c l => Nm (cb_name (c_b c)) (map rc_names l) end.
Definition device_names (d : device) : list names := map (fun p => Nm (pb_name (pr_b p)) (map rc_names (pr_rcs p))) (dv_periphs d).
(** a way to check that bases are plain *)
Definition is_derived_clu (x : svd_rc) : bool := match x with SClu c _ => is_some (sc_derived c) | SReg _ => false end.
Definition named_by_cluster (name : string) (y : svd_rc) : bool :=
  match y with SClu c _ => match sc_derived c with Some path => String.eqb (path_end path) name | None => false end | SReg _ => false end.
Definition plain_cluster_bases_b (d : svd_device) : bool :=
  forallb (fun x => match x with
                    | SClu c l => negb (existsb is_derived_clu (flat_map all_rcs l)) || negb (contains "%s" (sc_name c)) && negb (existsb (named_by_cluster (sc_name c)) (all_of d))
                    | SReg _ => true end) (all_of d).
Definition plain_peripheral_bases_b (d : svd_device) : bool :=
  forallb (fun p => match sp_derived p with
                    | Some path => (length (split_on "." path) =? 1)%nat && negb (String.eqb (sp_name p) path) && existsb (fun q => String.eqb (sp_name q) path) (sdv_periphs d)
                    | None => true end) (sdv_periphs d).
Lemma split_on_one c s : length (split_on c s) = 1%nat -> split_on c s = [s].
Proof.
  induction s as [|d s IH]; cbn; [reflexivity|]. destruct (Ascii.eqb c d).
  - cbn. intros H. injection H as H. destruct s; cbn in H; [discriminate|]. destruct (Ascii.eqb c a); [discriminate|]. destruct (split_on c s); discriminate.
  - destruct (split_on c s) as [|x l] eqn:E; cbn; intros H.
    + destruct s; cbn in E; [discriminate|]. destruct (Ascii.eqb c a); [discriminate|]. destruct (split_on c s); discriminate.
    + specialize (IH H). injection IH as -> ->. reflexivity.
Qed.
Lemma all_rcs_inside x : forall y, In y (all_rcs x) -> forall z, In (PaRc z) (kids_of (PaRc y)) -> In z (all_rcs x).
Proof.
  induction x as [r|c l IH] using svd_rc_ind'; intros y Hy z Hz.
  - destruct Hy as [<-|[]]. cbn in Hz. apply in_map_iff in Hz as (f & K & _). discriminate.
  - rewrite Forall_forall in IH. destruct Hy as [<-|Hy].
    + cbn in Hz. apply in_map_iff in Hz as (w & K & Hw). injection K as ->. right. apply in_flat_map. exists z. split; [exact Hw|]. destruct z; now left.
    + apply in_flat_map in Hy as (w & Hw & Hy). right. apply in_flat_map. exists w. split; [exact Hw|]. exact (IH w Hw y Hy z Hz).
Qed.
Lemma inside_cluster c l e : Inside (PaRc (SClu c l)) e -> match e with PaRc z => In z (flat_map all_rcs l) | PaFld _ | PaEvc _ => True | _ => False end.
Proof.
  induction 1 as [e H|x e _ IH H].
  - cbn in H. apply in_map_iff in H as (z & <- & Hz). apply in_flat_map. exists z. split; [exact Hz|]. destruct z; now left.
  - destruct x as [|p|x|f|x]; try (now destruct IH); cbn in H; try (now destruct H).
    + destruct x as [r|c' l']; apply in_map_iff in H as (z & <- & Hz); [exact Logic.I|]. apply in_flat_map in IH as (w & Hw & IH). apply in_flat_map. exists w. split; [exact Hw|]. apply (all_rcs_inside w _ IH). cbn. now apply in_map.
    + apply in_map_iff in H as (z & <- & Hz). exact Logic.I.
Qed.
Lemma plain_bases_dec d : plain_cluster_bases_b d = true -> plain_peripheral_bases_b d = true -> plain_bases d.
Proof.
  intros H1 H2. split.
  - intros a e (Ha & ed & path & Hed & Hl & Hp & Hm) La Hi [Le De]. unfold plain_cluster_bases_b in H1. rewrite forallb_forall in H1. destruct a as [|?|[?|c l]|?|?]; try discriminate. destruct Ha as (p & Hpp & Hx). specialize (H1 _ (declared_of _ _ _ Hpp Hx)). cbn in H1.
    apply inside_cluster in Hi. destruct e as [|?|[?|ce le]|?|?]; try discriminate. apply orb_true_iff in H1 as [H1|H1].
    + apply negb_true_iff in H1. assert (K : existsb is_derived_clu (flat_map all_rcs l) = true); [|congruence]. apply existsb_exists. exists (SClu ce le). split; [exact Hi|]. cbn in De |- *. destruct (sc_derived ce); [reflexivity|congruence].
    + apply andb_true_iff in H1 as [H3 H4]. apply negb_true_iff in H3, H4. assert (Hn : ~ has_placeholder (sc_name c)) by (intros K; apply PyStr.contains_spec in K; congruence).
      assert (En : path_end path = sc_name c). { destruct Hm as [Hm|(ph & ix & Hph & Hs)]; [now symmetry|]. cbn in Hs. destruct Hs as [s _|pre s r _ _]; [reflexivity|]. exfalso. apply Hn. destruct Hph as [-> | ->]; [now exists pre, s|]. exists (pre ++ "[")%string, ("]" ++ s)%string. rewrite <- (sapp_assoc pre "[" _). reflexivity. }
      destruct ed as [|?|[?|cd ld]|?|?]; try discriminate. destruct Hed as (p' & Hp' & Hx'). assert (K : existsb (named_by_cluster (sc_name c)) (all_of d) = true); [|congruence]. apply existsb_exists. exists (SClu cd ld). split; [exact (declared_of _ _ _ Hp' Hx')|]. cbn in Hp |- *. rewrite Hp, En. apply String.eqb_refl.
  - left. intros p path Hp Hd. unfold plain_peripheral_bases_b in H2. rewrite forallb_forall in H2. specialize (H2 p Hp). rewrite Hd in H2. apply andb_true_iff in H2 as [H2 H3]. apply andb_true_iff in H2 as [H2 H4].
    split; [|split].
    + apply Nat.eqb_eq in H2. assert (K := split_on_one "." path H2). exact K.
    + intros K. apply negb_true_iff in H4. rewrite K, String.eqb_refl in H4. discriminate.
    + apply existsb_exists in H3 as (q & K1 & K2). apply String.eqb_eq in K2. eauto.
Qed.
(** Derived clusters inside of a base peripheral, next to each other and nested, meet the hypotheses of C46 *)
Definition derived_clusters_sample : svd_device :=
  s_dev [ s_per "P" 0
            [ s_clu noprops "C" 0 None [ s_reg "R" 0 [] None None ] None; s_clu noprops "D" 64 None [ s_reg "S" 4 [] None None ] (Some "C");
              s_clu noprops "E" 128 None [ s_clu noprops "F" 0 None [] (Some "P.D"); s_clu noprops "G" 32 None [] (Some "F") ] None ] None None;
          s_per "Q" 4096 [] None (Some "P") ]%string.
Definition derived_clusters_result := process_device 20 derived_clusters_sample.
Example C46_nonvacuous_clusters : plain_bases derived_clusters_sample /\ Processes derived_clusters_sample (fst derived_clusters_result) (the_device derived_clusters_result) /\
  device_names (the_device derived_clusters_result) =
  let l := [ Nm "C" [Nm "R" []]; Nm "D" [Nm "R" []; Nm "S" []]; Nm "E" [Nm "F" [Nm "R" []; Nm "S" []]; Nm "G" [Nm "R" []; Nm "S" []]] ] in [ Nm "P" l; Nm "Q" l ]%string.
Proof.
  split; [now apply plain_bases_dec|]. split; [exists 20%nat; unfold the_device; vm_compute; reflexivity|vm_compute; reflexivity].
Qed.
(** Cluster X.Z is derived from T; T consists of U (with register R) and V, which is derived from U.  So T and Z should both consist of U{R} and V{R}.
    In the result the cluster V occurs twice in T: next to U, and once more inside of U. *)
Definition nested_base : svd_device :=
  s_dev [ s_per "P" 0
    [ s_clu noprops "X" 0 None [ s_clu noprops "Z" 0 None [] (Some "P.T") ] None;
      s_clu noprops "T" 64 None [ s_clu noprops "U" 0 None [ s_reg "R" 0 [] None None ] None; s_clu noprops "V" 4 None [] (Some "U") ] None ] None None ]%string.
Theorem C47_derived_clusters_refuted : exists ws dev, Processes nested_base ws dev /\
  device_names dev = [Nm "P" [ Nm "X" [Nm "Z" [Nm "U" [Nm "R" []]; Nm "V" [Nm "R" []]]]; Nm "T" [Nm "U" [Nm "R" []; Nm "V" [Nm "R" []]]; Nm "V" [Nm "R" []]] ]]%string.
Proof.
  exists (fst (process_device 20 nested_base)), (the_device (process_device 20 nested_base)). split; [exists 20%nat; unfold the_device; vm_compute; reflexivity|vm_compute; reflexivity].
Qed.

Print Assumptions C46_expansion.
Print Assumptions C46_every_element.
Print Assumptions C46_children_among_siblings.
Print Assumptions C46_nothing_invented.
Print Assumptions C32_C35_derivation_applied_partial.
Print Assumptions C38_plain_expansion.
Print Assumptions C47_derived_clusters_refuted.
