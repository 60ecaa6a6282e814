(** * AcceptDeep: descriptions with elements derived from their siblings, at every level, are resolved.  (C56) *)
From Coq Require Import Relations.
From Verif Require Import Base PyStr PyInt Types DimModel EnumModel ElemModel ResolveModel ProcessModel GraphFacts ReplicateFacts ResolveWF TopoFacts ResolveInv
  SpecDim SpecElem SpecDeclared SpecExpand SpecAccept PropsDim DescribeFacts ExpandInv ExpandBuild ExpandStep ExpandNode ExpandRounds ExpandShare ExpandScope TermFacts FuelFacts ExpandLeft ExpandFinal BuildOk LookupOk AcceptFacts.

(** ** Groups *)
Section Siblings.
  Context (sibs : list parsed).
  Lemma sib_in e b : SiblingBase sibs e b -> In b sibs.
  Proof. intros (path & l1 & l2 & _ & _ & E & _). rewrite E. apply in_elt. Qed.
  Lemma sib_level e b : SiblingBase sibs e b -> level_of b = level_of e.
  Proof. intros (path & l1 & l2 & _ & _ & _ & E & _). exact E. Qed.
  Lemma sib_path e b path : SiblingBase sibs e b -> derived_of e = Some path -> parsed_name b = path /\ split_on "." path = [path].
  Proof. intros (path' & l1 & l2 & Hd & Hs & _ & _ & Hn & _) Hp. rewrite Hp in Hd. injection Hd as <-. auto. Qed.
  Lemma sib_name e b path r : SiblingBase sibs e b -> derived_of e = Some path -> In r sibs -> level_of r = level_of e -> parsed_name r = path -> r = b.
  Proof.
    intros (path' & l1 & l2 & Hd & _ & E & _ & _ & Hu & _) Hp Hr Hl Hn. rewrite Hp in Hd. injection Hd as <-. rewrite E in Hr. apply in_app_iff in Hr as [Hr|[Hr|Hr]]; [|now symmetry|]; exfalso; apply (Hu r); auto; apply in_app_iff; auto.
  Qed.
  Lemma sib_inst e b path r : SiblingBase sibs e b -> derived_of e = Some path -> In r sibs -> level_of r = level_of e -> ~ InstanceName r path.
  Proof. intros (path' & l1 & l2 & Hd & _ & _ & _ & _ & _ & Hu) Hp Hr Hl. rewrite Hp in Hd. injection Hd as <-. now apply Hu. Qed.
  Lemma sib_fun e b b' : SiblingBase sibs e b -> SiblingBase sibs e b' -> b' = b.
  Proof. intros H H'. assert (K := H'). destruct K as (path & l1 & l2 & Hd & _). apply (sib_name e b path); auto; [now apply sib_in in H'|now apply sib_level in H'|]. apply (sib_path e b' path H' Hd). Qed.
  Lemma content_acc e ks : Content sibs e ks -> Acc (fun b e => SiblingBase sibs e b) e.
  Proof.
    induction 1 as [e He|e b kb Hb _ IH]; constructor; intros r Hr; [destruct Hr as (path & l1 & l2 & Hd & _); congruence|]. now rewrite (sib_fun _ _ _ Hb Hr).
  Qed.
  Lemma content_via e ks : Content sibs e ks -> derived_of e = None \/ exists b, SiblingBase sibs e b.
  Proof. destruct 1; eauto. Qed.
End Siblings.
Lemma group_declared ps sibs : Group ps sibs -> forall e, In e sibs -> Declared ps e.
Proof.
  induction 1 as [|sibs e ks _ IH He HC]; intros x Hx.
  - apply in_map_iff in Hx as (p & <- & Hp). exact Hp.
  - clear - IH He HC Hx. induction HC as [e Hd|e b kb Hb HC IHC]; [eapply kids_declared; [apply IH; exact He|exact Hx]|]. apply in_app_iff in Hx as [Hx|Hx]; [eapply kids_declared; [apply IH; exact He|exact Hx]|].
    apply IHC; [|exact Hx]. now apply sib_in in Hb.
Qed.

(** ** What the graph knows about siblings *)
(** a child edge is marked exactly when its source is processed; and what is below something unprocessed is unprocessed *)
Definition DEq (g : graph) : Prop := forall a b t n, In (a, b, t) (g_edges g) -> is_child t = true -> get_node g a = Some n -> (t = CHILD_RESOLVED <-> n_done n = true).
Definition PD (g : graph) : Prop := forall p c, Kid g p c -> done_at g c -> done_at g p.
Definition L4 (lv : level) : Prop := lv <> LEnum.

Section Deep.
  Context (ps : list svd_periph) (Quiet : forall a e, MayBeBase ps a -> Inside a e -> derived_of e = None) (HE : forall e, Declared ps e -> is_evc e -> derived_of e = None)
    (HC : forall sibs e, Group ps sibs -> In e sibs -> exists ks, Content sibs e ks)
    (HI : forall sibs x kb vs tv v e b path, Group ps sibs -> In x sibs -> Elab ps sibs x kb vs (Some tv) -> In v vs -> SiblingBase sibs e b -> derived_of e = Some path -> level_of x = level_of e -> processed_name v <> path).
  Let S := strict ps.
  Lemma deep_ndc : forall a e, MayBeBase ps a -> level_of a = LCluster -> Inside a e -> ~ derived_cluster e.
  Proof. intros a e Ha _ Hi [_ K]. apply K. eapply Quiet; eassumption. Qed.
  Let NDC := deep_ndc.
  Definition val_of (vs : list processed) (tv : option processed) (v : processed) : Prop := match tv with Some t => v = t | None => vs = [v] end.

  Lemma elab_described sc e ks vs tv : Elab ps sc e ks vs tv -> exists bv, Described e bv vs tv.
  Proof. destruct 1; eauto. Qed.
  Lemma described_name e bv vs tv v : Described e bv vs tv -> val_of vs tv v -> processed_name v = parsed_name e.
  Proof. intros D. destruct D as [v0 _ Hn|vs tv n idx ph _ _ _ _ _ _ Hn]; cbn; intros E; [injection E as ->; exact Hn|subst; exact Hn]. Qed.
  (** the first node of a family stands for the element itself *)
  Definition HeadOf (g : graph) (KS : nat -> list parsed) (sc : list parsed) (x : parsed) (h : nat) : Prop :=
    exists n, get_node g h = Some n /\ n_parsed n = x /\ n_name n = Some (parsed_name x) /\
      (n_done n = true -> exists vs tv v, Elab ps sc x (KS h) vs tv /\ n_processed n = Some v /\ val_of vs tv v).
  Lemma fam_head g KS sc x fam : Iv S nobody g KS -> Declared ps x -> ~ is_evc x -> Fam S nobody g KS sc x fam -> (forall c, In c fam -> c <> 0%nat) ->
    exists h t, fam = h :: t /\ HeadOf g KS sc x h /\
      forall j, In j t -> exists n v vs tv, get_node g j = Some n /\ n_done n = true /\ n_name n = Some (processed_name v) /\ Elab ps sc x (KS j) vs (Some tv) /\ In v vs.
  Proof.
    intros (Wf & V & E) HD Hev HF H0.
    assert (Hname : forall c n v, c <> 0%nat -> get_node g c = Some n -> n_done n = true -> ~ is_evc (n_parsed n) -> n_processed n = Some v -> n_name n = Some (processed_name v)).
    { intros c n v Hc Hn Hd He Hv. destruct (v_node _ _ _ _ V _ _ Hc Hn) as (_ & _ & _ & K). destruct (K Hd) as [(e0 & e' & K1 & _)|[_ (sc' & vs & tv & v' & _ & K2 & _ & K3 & _)]]; [rewrite K1 in He; destruct He; exact Logic.I|]. rewrite Hv in K2. injection K2 as <-. exact K3. }
    destruct HF as [e c n Hn Hd Hp|e c n [] _ _|e0 e' c n _ _ _ _|e c n v Hn Hd Ht Hp Hv HEl|e c n js vs tv Hn Hd Ht Hp Hv HEl F2].
    - exists c, []. split; [reflexivity|]. split; [|intros j []]. exists n. split; [exact Hn|]. split; [exact Hp|]. split; [|congruence].
      destruct (v_node _ _ _ _ V _ _ (H0 c (or_introl eq_refl)) Hn) as (_ & _ & K & _). destruct (K Hd) as (_ & _ & K1 & _). rewrite K1, Hp. destruct e; try reflexivity; [destruct HD|destruct Hev; exact Logic.I].
    - destruct Hev. exact Logic.I.
    - exists c, []. split; [reflexivity|]. split; [|intros j []]. exists n. split; [exact Hn|]. split; [exact Hp|]. cbn in HEl. destruct (elab_described _ _ _ _ _ HEl) as (bv & D).
      split; [rewrite (Hname c n v (H0 c (or_introl eq_refl)) Hn Hd); [|rewrite Hp; exact Hev|exact Hv]; f_equal; exact (described_name _ _ _ _ v D eq_refl)|]. intros _. exists [v], None, v. split; [exact HEl|]. split; [exact Hv|reflexivity].
    - exists c, js. split; [reflexivity|]. cbn in HEl. destruct (elab_described _ _ _ _ _ HEl) as (bv & D). split.
      + exists n. split; [exact Hn|]. split; [exact Hp|]. split; [rewrite (Hname c n tv (H0 c (or_introl eq_refl)) Hn Hd); [|rewrite Hp; exact Hev|exact Hv]; f_equal; exact (described_name _ _ _ _ tv D eq_refl)|]. intros _. exists vs, (Some tv), tv. split; [exact HEl|]. split; [exact Hv|reflexivity].
      + intros j Hj. assert (K : exists v, In v vs /\ Inst g KS e c j v). { clear - F2 Hj. induction F2 as [|j' v js vs HI _ IH]; [destruct Hj|]. destruct Hj as [<-|Hj]; [exists v; split; [now left|exact HI]|]. destruct (IH Hj) as (v' & K1 & K2). exists v'. split; [now right|exact K2]. }
        destruct K as (v & Hvin & nj & Kn & Kd & Kt & Kp & Kv & KK). exists nj, v, vs, tv. split; [exact Kn|]. split; [exact Kd|]. split; [apply (Hname j nj v); auto; [apply H0; now right|rewrite Kp; exact Hev]|].
        split; [rewrite KK; exact HEl|exact Hvin].
  Qed.

  (** *** contents *)
  Lemma elab_content sc e ks vs tv : Group ps sc -> In e sc -> Elab ps sc e ks vs tv -> Content sc e ks.
  Proof.
    intros HG He HEl. revert HG He. induction HEl as [sc e vs tv Hd _|sc e path sb eb kb vsb tvb bv vs tv Hd _ Hl Hsc HEb IH Hbv Hnm _]; intros HG He; [now apply Co_own|].
    destruct (HC sc e HG He) as (ks0 & HK). destruct (content_via _ _ _ HK) as [K|(b & Hb)]; [congruence|]. destruct (sib_path sc e b path Hb Hd) as [Hbn Hs]. destruct (Hsc Hs) as [-> Hin].
    assert (Hpe : path_end path = path) by (unfold path_end; rewrite Hs; reflexivity). rewrite Hpe in Hnm.
    assert (eb = b).
    { apply (sib_name sc e b path); auto. destruct (elab_described _ _ _ _ _ HEb) as (bv0 & D). destruct D as [v0 Hnp Hn0 HP HA Hds Hdm Hd2|vs0 tv0 n idx ph H1 H2 H3 H4 H5 H6 H7 H8 H9 H10 H11].
      - destruct Hbv as [[->|[]]|K]; [congruence|discriminate].
      - assert (D : Described eb bv0 vs0 (Some tv0)) by (eapply Many; eassumption). destruct Hbv as [Hbv|Hbv]; [|injection Hbv as ->; congruence].
        exfalso. exact (HI sc eb kb vs0 tv0 bv e b path HG Hin HEb Hbv Hb Hd Hl Hnm). }
    subst eb. apply Co_via with b; [exact Hb|]. now apply IH.
  Qed.

  Record GI (g : graph) (KS : nat -> list parsed) : Prop := { gi_iv : Iv S nobody g KS; gi_sh : Sh g; gi_sc : Sc nobody g KS; gi_k0 : KS 0%nat = map PaPer ps; gi_de : DEq g; gi_pd : PD g; gi_dv : DvL L4 g }.
  Lemma kid_fam g KS p c : Iv S nobody g KS -> Kid g p c -> exists e fam, In e (KS p) /\ Fam S nobody g KS (KS p) e fam /\ In c fam /\ (forall x, In x fam -> Kid g p x).
  Proof.
    intros (Wf & V & E) Hk. assert (He : is_elem g p = true) by (unfold Kid in Hk; apply ckids_In in Hk as (t & Hk & Ht); exact (proj1 (w_child _ E _ _ _ Hk Ht))).
    destruct (v_kids _ _ _ _ V p He) as (fams & P & F). destruct (Fams_in _ _ _ _ _ _ _ c F) as (e & fam & H1 & H2 & H3 & H4); [eapply Permutation_in; [exact P|exact Hk]|]. exists e, fam. split; [exact H1|]. split; [exact H3|]. split; [exact H4|].
    intros x Hx. unfold Kid. eapply Permutation_in; [apply Permutation_sym; exact P|]. apply in_concat. eauto.
  Qed.
  Lemma kid_nz g KS p c : Iv S nobody g KS -> Kid g p c -> c <> 0%nat.
  Proof. intros (Wf & V & E) Hk. assert (He : is_elem g p = true) by (unfold Kid in Hk; apply ckids_In in Hk as (t & Hk & Ht); exact (proj1 (w_child _ E _ _ _ Hk Ht))). apply is_elem_node in He as (n & Hn). exact (proj1 (child_level S nobody g KS p n c V Hn Hk)). Qed.
  Lemma group_done g KS p : GI g KS -> done_at g p -> Group ps (KS p).
  Proof.
    intros G (n & Hn & Hd). assert (I := gi_iv _ _ G). assert (R : Rooted g p) by (apply (sh_root _ (gi_sh _ _ G)); apply is_elem_node; eauto). apply clos_rt_rtn1 in R. revert n Hn Hd.
    induction R as [|y z Hyz _ IH]; intros n Hn Hd; [rewrite (gi_k0 _ _ G); constructor|]. destruct (gi_pd _ _ G y z Hyz (ex_intro _ n (conj Hn Hd))) as (ny & Hny & Hdy). assert (HG := IH ny Hny Hdy).
    destruct (kid_fam g KS y z I Hyz) as (e & fam & He & HF & Hz & Hsub). assert (HD := group_declared ps _ HG e He). assert (H0 : forall c, In c fam -> c <> 0%nat) by (intros c Hc; exact (kid_nz g KS y c I (Hsub c Hc))).
    assert (Hor : (exists x, e = PaEvc x) \/ ~ is_evc e) by (destruct e; cbn; eauto). destruct Hor as [(x & ->)|Hev].
    - destruct (Fam_level _ _ _ _ _ _ _ z HF Hz) as (n' & Hn' & Hl). rewrite Hn in Hn'. injection Hn' as <-. assert (Hz0 := H0 z Hz). destruct (v_node _ _ _ _ (proj1 (proj2 I)) _ _ Hz0 Hn) as (_ & _ & _ & K). destruct (n_parsed n) as [|?|[?|? ?]|?|x'] eqn:Ep; try discriminate.
      destruct (K Hd) as [(e0 & e' & _ & _ & _ & _ & _ & K5 & _)|[K1 _]]; [|destruct K1; exact Logic.I]. rewrite K5. eapply Gp_in with (e := PaEvc x); [exact HG|exact He|]. apply (Co_own (KS y) (PaEvc x)). apply HE; [exact HD|exact Logic.I].
    - destruct (fam_head g KS (KS y) e fam I HD Hev HF H0) as (h & t & -> & (nh & Hnh & Hp & _ & Hdone) & Ht). destruct Hz as [->|Hz].
      + rewrite Hn in Hnh. injection Hnh as <-. destruct (Hdone Hd) as (vs & tv & v & HEl & _). apply Gp_in with (KS y) e; auto. exact (elab_content _ _ _ _ _ HG He HEl).
      + destruct (Ht z Hz) as (nj & v & vs & tv & _ & _ & _ & HEl & _). apply Gp_in with (KS y) e; auto. exact (elab_content _ _ _ _ _ HG He HEl).
  Qed.
  Lemma all_parents_done g c p q : Sh g -> Kid g p c -> Kid g q c -> done_at g p -> done_at g q.
  Proof. intros Hs Hp Hq Hd. destruct (Nat.eq_dec p q) as [<-|Hne]; [exact Hd|]. destruct (sh_co _ Hs c p q Hp Hq Hne) as (np & nq & t & _ & Hnq & _ & Hdq & _). exists nq. auto. Qed.
  (** an unprocessed derived child of a processed node: its base *)
  Lemma sib_of g KS p c n path : GI g KS -> done_at g p -> Kid g p c -> get_node g c = Some n -> n_done n = false -> derived_of (n_parsed n) = Some path ->
    c <> 0%nat /\ n_level n <> LEnum /\ n_level n = level_of (n_parsed n) /\ In (n_parsed n) (KS p) /\ exists b, SiblingBase (KS p) (n_parsed n) b /\ ~ is_evc b.
  Proof.
    intros G Hp Hk Hn Hd Hder. assert (I := gi_iv _ _ G). assert (V := proj1 (proj2 I)). assert (Hc0 := kid_nz g KS p c I Hk). assert (HG := group_done g KS p G Hp). destruct (kid_fam g KS p c I Hk) as (e & fam & He & HF & Hc & Hsub).
    destruct (v_node _ _ _ _ V _ _ Hc0 Hn) as (Hl & HD & _). assert (Hev : ~ is_evc (n_parsed n)) by (intros K; rewrite (HE _ HD K) in Hder; discriminate).
    assert (Hle : n_level n <> LEnum) by (intros K; apply Hev; rewrite Hl in K; destruct (n_parsed n) as [|?|[?|? ?]|?|?]; try discriminate; exact Logic.I). split; [exact Hc0|]. split; [exact Hle|]. split; [exact Hl|].
    assert (Hee : n_parsed n = e).
    { inversion HF as [e1 c1 n1 Hn1 Hd1 Hp1|e1 c1 n1 HW|e0 e' c1 n1 Hn1 Hd1 Hp1 _|e1 c1 n1 v Hn1 Hd1 _ Hp1 _ _|e1 c1 n1 js vs tv Hn1 Hd1 _ Hp1 _ _ F2]; subst; try contradiction; try (destruct Hc as [<-|[]]; rewrite Hn in Hn1; injection Hn1 as <-; congruence).
      destruct Hc as [<-|Hc]; [rewrite Hn in Hn1; injection Hn1 as <-; congruence|]. exfalso. clear - F2 Hc Hn Hd. induction F2 as [|j v js vs (nj & K1 & K2 & _) _ IH]; [destruct Hc|]. destruct Hc as [<-|Hc]; [rewrite Hn in K1; injection K1 as <-; congruence|auto]. }
    rewrite <- Hee in He. split; [exact He|]. destruct (HC _ _ HG He) as (ks & HK). destruct (content_via _ _ _ HK) as [K|(b & Hb)]; [congruence|]. exists b. split; [exact Hb|]. intros K. apply sib_level in Hb. apply Hle. rewrite Hl, <- Hb. destruct b; try contradiction. reflexivity.
  Qed.
  (** the only child of that name *)
  Lemma base_node g KS p e b path : GI g KS -> done_at g p -> In e (KS p) -> SiblingBase (KS p) e b -> derived_of e = Some path -> ~ is_evc b ->
    exists k, Kid g p k /\ HeadOf g KS (KS p) b k /\ forall j n, Kid g p j -> get_node g j = Some n -> n_level n = level_of e -> n_name n = Some path -> j = k.
  Proof.
    intros G Hp He Hb Hder Hev. assert (I := gi_iv _ _ G). assert (V := proj1 (proj2 I)). assert (HG := group_done g KS p G Hp). assert (Hbi := sib_in _ _ _ Hb). assert (Hbl := sib_level _ _ _ Hb).
    assert (Hpe : is_elem g p = true) by (destruct Hp as (n & Hn & _); apply is_elem_node; eauto). destruct (v_kids _ _ _ _ V p Hpe) as (fams & P & F).
    assert (Hsub : forall x, In x (concat fams) -> Kid g p x) by (intros x Hx; unfold Kid; eapply Permutation_in; [apply Permutation_sym; exact P|exact Hx]).
    assert (Hsplit : exists l1 l2, KS p = l1 ++ b :: l2 /\ forall x, In x (l1 ++ l2) -> level_of x = level_of e -> parsed_name x <> path).
    { destruct Hb as (path' & l1 & l2 & Hd' & _ & E & _ & _ & Hu & _). rewrite Hder in Hd'. injection Hd' as <-. exists l1, l2. auto. }
    destruct Hsplit as (l1 & l2 & ES & Hu). rewrite ES in F at 2. apply Forall2_app_inv_l in F as (f1 & f2 & F1 & F2 & ->). inversion F2 as [|? fb ? f3 Fb F3]; subst. clear F2.
    assert (Hnz : forall x, In x (concat (f1 ++ fb :: f3)) -> x <> 0%nat) by (intros x Hx; exact (kid_nz g KS p x I (Hsub x Hx))).
    rewrite concat_app in Hsub, Hnz. cbn [concat] in Hsub, Hnz. destruct (fam_head g KS (KS p) b fb I (group_declared ps _ HG b Hbi) Hev Fb) as (k & t & -> & Hk & Ht); [intros c Hc; apply Hnz; apply in_app_iff; right; apply in_app_iff; now left|].
    exists k. split; [apply Hsub; apply in_app_iff; right; now left|]. split; [exact Hk|]. intros j n Hj Hn Hl Hnm.
    assert (Hother : forall x fam, In x (l1 ++ l2) -> Fam S nobody g KS (KS p) x fam -> In j fam -> (forall c, In c fam -> c <> 0%nat) -> False).
    { intros x fam Hx HF Hjf Hz. destruct (Fam_level _ _ _ _ _ _ _ j HF Hjf) as (n' & Hn' & Hlx). rewrite Hn in Hn'. injection Hn' as <-. assert (Hln : n_level n = level_of (n_parsed n)) by (apply (v_node _ _ _ _ V j n (Hz j Hjf) Hn)). assert (Hxl : level_of x = level_of e) by congruence.
      assert (Hxi : In x (KS p)) by (rewrite ES; apply in_app_iff in Hx as [Hx|Hx]; apply in_app_iff; [now left|right; now right]). assert (Hxe : ~ is_evc x) by (intros K; apply Hev; destruct x; try contradiction; cbn in Hxl; destruct b as [|?|[?|? ?]|?|?]; cbn in Hbl; try congruence; exact Logic.I).
      destruct (fam_head g KS (KS p) x fam I (group_declared ps _ HG x Hxi) Hxe HF Hz) as (k' & t' & -> & (nk & Hnk & _ & Hnmk & _) & Ht'). destruct Hjf as [<-|Hjf].
      - rewrite Hn in Hnk. injection Hnk as <-. rewrite Hnm in Hnmk. injection Hnmk as Hnmk. exact (Hu x Hx Hxl (eq_sym Hnmk)).
      - destruct (Ht' j Hjf) as (nj & v & vs & tv & Hnj & _ & Hnv & HEl & Hvin). rewrite Hn in Hnj. injection Hnj as <-. rewrite Hnm in Hnv. injection Hnv as Hnv. exact (HI (KS p) x (KS j) vs tv v e b path HG Hxi HEl Hvin Hb Hder Hxl (eq_sym Hnv)). }
    assert (Hin : In j (concat (f1 ++ (k :: t) :: f3))) by (eapply Permutation_in; [exact P|exact Hj]). rewrite concat_app in Hin. cbn [concat] in Hin. apply in_app_iff in Hin as [Hin|Hin]; [|apply in_app_iff in Hin as [Hin|Hin]].
    - exfalso. destruct (Fams_in _ _ _ _ _ _ _ j F1 Hin) as (x & fam & Hx & Hfam & HF & Hjf). apply (Hother x fam); auto; [apply in_app_iff; now left|]. intros c Hc. apply Hnz. apply in_app_iff. left. apply in_concat. eauto.
    - destruct Hin as [<-|Hin]; [reflexivity|]. exfalso. destruct (Ht j Hin) as (nj & v & vs & tv & Hnj & _ & Hnv & HEl & Hvin). rewrite Hn in Hnj. injection Hnj as <-. rewrite Hnm in Hnv. injection Hnv as Hnv. exact (HI (KS p) b (KS j) vs tv v e b path HG Hbi HEl Hvin Hb Hder Hbl (eq_sym Hnv)).
    - exfalso. destruct (Fams_in _ _ _ _ _ _ _ j F3 Hin) as (x & fam & Hx & Hfam & HF & Hjf). apply (Hother x fam); auto; [apply in_app_iff; now right|]. intros c Hc. apply Hnz. apply in_app_iff. right. apply in_app_iff. right. apply in_concat. eauto.
  Qed.

  (** ** Looking up *)
  Lemma kid_desc g p c : Kid g p c -> Desc g p c.
  Proof. intros K. apply ckids_In in K as (t & K & Ht). apply t_step. exists t. split; [exact K|]. destruct t; discriminate. Qed.
  Lemma no_desc g KS b nb d nd : Iv S nobody g KS -> b <> 0%nat -> get_node g b = Some nb -> MayBeBase ps (n_parsed nb) -> Desc g b d -> get_node g d = Some nd -> derived_of (n_parsed nd) <> None -> False.
  Proof.
    intros I H0 Hb Hmb HD Hd Hder. destruct (desc_inside S nobody g KS b nb d nd (proj1 (proj2 I)) (proj2 (proj2 I)) H0 Hb Hmb HD Hd) as [K|(a & K1 & K2 & _)].
    - assert (Hd0 : d <> 0%nat) by (intros ->; rewrite (v_root _ _ _ _ (proj1 (proj2 I))) in Hd; injection Hd as <-; discriminate). destruct (v_node _ _ _ _ (proj1 (proj2 I)) _ _ Hd0 Hd) as (L1 & L2 & _). apply Hder. apply HE; [exact L2|].
      rewrite K in L1. destruct (n_parsed nd) as [|?|[?|? ?]|?|?]; try discriminate. exact Logic.I.
    - apply Hder. exact (Quiet a _ K1 K2).
  Qed.
  Lemma head_sib g KS c n p l b nb : Iv S nobody g KS -> get_node g c = Some n -> derived_of (n_parsed n) <> None -> n_level n <> LEnum -> get_element_parents g c = p :: l -> get_node g b = Some nb -> n_level nb = n_level n ->
    In b (successors g p) -> Kid g p b.
  Proof.
    intros I Hc Hdc Hev Ep Hb Hl Hin. assert (I' := I). destruct I' as (Wf & V & E).
    assert (Kp : Kid g p c) by (apply (parents_ckids _ _ _ E); rewrite Ep; now left). apply successors_In in Hin as (t & Hin). destruct (is_child t) eqn:Et; [apply ckids_In; eauto|]. exfalso.
    assert (Hpe : is_elem g p = true) by (apply ckids_In in Kp as (u & K1 & K2); apply (w_child _ E _ _ _ K1 K2)). apply is_elem_iff in Hpe as [np Hp].
    destruct t; try discriminate.
    - destruct (w_ph _ E _ _ Hin) as [(q & m & K & _)|(_ & q & m & K & _)]; [apply get_node_slot in Hp|apply get_node_slot in Hb]; congruence.
    - destruct (w_der _ E _ _ Hin) as (na & nb' & K1 & K2 & K3 & K4). rewrite Hp in K1. injection K1 as <-. rewrite Hb in K2. injection K2 as <-.
      destruct (child_level _ _ _ _ _ _ _ V Hp Kp) as (_ & n' & Hn' & Elc & Hlt). rewrite Hc in Hn'. injection Hn' as <-. rewrite K3, Hl in Hlt.
      assert (Lc : n_level n = LCluster) by (destruct Hlt as [Hlt|[Hlt _]]; [lia|exact Hlt]).
      destruct K4 as [[_ K4]|(path & K4 & K5)]; [congruence|].
      assert (Hp0 : p <> 0%nat). { intros ->. rewrite (v_root _ _ _ _ V) in Hp. injection Hp as <-. cbn in K3. congruence. }
      assert (Hb0 : b <> 0%nat). { intros ->. rewrite (v_root _ _ _ _ V) in Hb. injection Hb as <-. cbn in Hl. congruence. }
      assert (Hm : MayBeBase ps (n_parsed np)) by (eapply (may_base S nobody g KS p b np nb path); eauto; congruence).
      exact (no_desc g KS p np c n I Hp0 Hp Hm (kid_desc _ _ _ Kp) Hc Hdc).
  Qed.
  Lemma deep_found g KS c n path p : GI g KS -> done_at g p -> Kid g p c -> get_node g c = Some n -> n_done n = false -> derived_of (n_parsed n) = Some path ->
    exists q k b, Kid g q c /\ Kid g q k /\ done_at g q /\ SiblingBase (KS q) (n_parsed n) b /\ HeadOf g KS (KS q) b k /\ path_resolving g c (n_level n) path = ret (Some k).
  Proof.
    intros G Hp Hk Hn Hd Hder. assert (I := gi_iv _ _ G). assert (E := proj2 (proj2 I)). destruct (get_element_parents g c) as [|q l] eqn:Eq; [exfalso; apply (parents_ckids _ _ _ E) in Hk; rewrite Eq in Hk; destruct Hk|].
    assert (Hq : Kid g q c) by (apply (parents_ckids _ _ _ E); rewrite Eq; now left). assert (Hqd := all_parents_done g c p q (gi_sh _ _ G) Hk Hq Hp).
    destruct (sib_of g KS q c n path G Hqd Hq Hn Hd Hder) as (Hc0 & Hle & Hl & Hin & b & Hb & Hbe). destruct (base_node g KS q (n_parsed n) b path G Hqd Hin Hb Hder Hbe) as (k & Kk & Hh & Hu).
    exists q, k, b. repeat match goal with |- _ /\ _ => split end; auto. destruct (sib_path _ _ _ _ Hb Hder) as [Hbn Hs].
    assert (Hkc : k <> c). { intros ->. destruct Hh as (m & Hm & Hmp & _). rewrite Hn in Hm. injection Hm as <-. destruct (HC _ _ (group_done g KS q G Hqd) Hin) as (ks & HK). apply (acc_irrefl _ _ (content_acc _ _ _ HK)). apply t_step. rewrite Hmp at 2. exact Hb. }
    unfold path_resolving, get_element_siblings. rewrite Eq, Hs. cbn [search_nodes]. assert (Hbl := sib_level _ _ _ Hb). destruct Hh as (m & Hm & Hmp & Hmn & _).
    assert (Hk0 := kid_nz g KS q k I Kk). destruct (v_node _ _ _ _ (proj1 (proj2 I)) _ _ Hk0 Hm) as (Hml & _).
    rewrite (loop_one g _ c (n_level n) path k); [rewrite bind_ret_l; reflexivity| | | |].
    - apply NoDup_filter. apply successors_NoDup.
    - apply filter_In. split; [apply successors_In; apply ckids_In in Kk as (t & Kt & _); exists t; exact Kt|]. apply andb_true_iff. split; [apply is_elem_node; eauto|]. now apply negb_true_iff, Nat.eqb_neq.
    - exists m. split; [exact Hm|]. split; [exact Hkc|]. split; [rewrite Hmn; congruence|]. rewrite Hml, Hmp. congruence.
    - intros j Hj (mj & Hmj & _ & Hnj & Hlj). apply filter_In in Hj as [Hj _]. apply (Hu j mj); auto; [|congruence]. apply (head_sib g KS c n q l j mj I Hn); auto. congruence.
  Qed.

  (** ** The invariant *)
  Record RS2 (g : graph) (KS : nat -> list parsed) : Prop := { r_gi : GI g KS; r_has : Has g;
    r_ph : forall h path, get_slot g h = Some (NPh path) -> (exists c, PhOut g h c) /\ exists p, is_elem g p = true /\ in_edges g h = [(p, h, PLACEHOLDER)];
    r_der : forall a c, In (a, c, DERIVE) (g_edges g) -> undone_at g c /\ exists p, Kid g p a /\ Kid g p c /\ done_at g p }.
  Lemma done_undone g x : done_at g x -> undone_at g x -> False.
  Proof. intros (n & H1 & H2) (m & H3 & H4). congruence. Qed.
  Lemma undone_in g KS p c n : Iv S nobody g KS -> Kid g p c -> get_node g c = Some n -> n_done n = false -> In (n_parsed n) (KS p).
  Proof.
    intros I Hk Hn Hd. destruct (kid_fam g KS p c I Hk) as (e & fam & He & HF & Hc & Hsub). 
    assert (Hee : n_parsed n = e).
    { inversion HF as [e1 c1 n1 Hn1 Hd1 Hp1|e1 c1 n1 HW|e0 e' c1 n1 Hn1 Hd1 Hp1 _|e1 c1 n1 v Hn1 Hd1 _ Hp1 _ _|e1 c1 n1 js vs tv Hn1 Hd1 _ Hp1 _ _ F2]; subst; try contradiction; try (destruct Hc as [<-|[]]; rewrite Hn in Hn1; injection Hn1 as <-; congruence).
      destruct Hc as [<-|Hc]; [rewrite Hn in Hn1; injection Hn1 as <-; congruence|]. exfalso. clear - F2 Hc Hn Hd. induction F2 as [|j v js vs (nj & K1 & K2 & _) _ IH]; [destruct Hc|]. destruct Hc as [<-|Hc]; [rewrite Hn in K1; injection K1 as <-; congruence|auto]. }
    now rewrite Hee.
  Qed.
  Definition Open (g : graph) (x : nat) : Prop := undone_at g x \/ exists path, get_slot g x = Some (NPh path).
  Lemma open_step g KS x y : RS2 g KS -> Open g x -> Step g x y -> Open g y.
  Proof.
    intros R Hx (t & Hxy). assert (I := gi_iv _ _ (r_gi _ _ R)). assert (E := proj2 (proj2 I)). destruct (is_child t) eqn:Et.
    - destruct (w_child _ E _ _ _ Hxy Et) as [Hxe Hye]. apply is_elem_node in Hxe as (nx & Hnx), Hye as (ny & Hny). left. exists ny. split; [exact Hny|]. destruct (n_done ny) eqn:Ed; [|reflexivity]. exfalso.
      assert (K := gi_pd _ _ (r_gi _ _ R) x y). destruct Hx as [Hx|(path & Hx)]; [|apply get_node_slot in Hnx; congruence]. apply (done_undone g x); [|exact Hx]. apply K; [apply ckids_In; eauto|exists ny; auto].
    - destruct t; try discriminate.
      + destruct (w_ph _ E _ _ Hxy) as [(path & n & _ & Hn & Hd & _)|(_ & path & c & Hs & _)]; [left; exists n; auto|right; eauto].
      + left. apply (r_der _ _ R _ _ Hxy).
  Qed.
  Lemma reach_open g KS x y : RS2 g KS -> Open g x -> Reach g x y -> Open g y.
  Proof. intros R Hx H. apply clos_rt_rtn1 in H. induction H as [|y z Hyz _ IH]; [exact Hx|]. exact (open_step g KS y z R IH Hyz). Qed.
  Lemma open_elem g x n : Open g x -> get_node g x = Some n -> n_done n = false.
  Proof. intros [(m & H1 & H2)|(path & H)] Hn; [congruence|apply get_node_slot in Hn; congruence]. Qed.
  Lemma der_sib g KS q a c nc : RS2 g KS -> done_at g q -> Kid g q a -> Kid g q c -> In (a, c, DERIVE) (g_edges g) -> get_node g c = Some nc -> undone_at g a -> exists na, get_node g a = Some na /\ SiblingBase (KS q) (n_parsed nc) (n_parsed na).
  Proof.
    intros R Hq Ha Hc H Hnc (na & Hna & Hda). assert (G := r_gi _ _ R). assert (I := gi_iv _ _ G). destruct (w_der _ (proj2 (proj2 I)) _ _ H) as (na' & nc' & K1 & K2 & K3 & K4). rewrite Hna in K1. injection K1 as <-. rewrite Hnc in K2. injection K2 as <-.
    destruct (r_der _ _ R _ _ H) as ((m & Hm & Hdm) & _). rewrite Hnc in Hm. injection Hm as <-. destruct K4 as [[K _]|(path & Hder & Hnm)]; [congruence|].
    destruct (sib_of g KS q c nc path G Hq Hc Hnc Hdm Hder) as (Hc0 & Hle & Hl & Hin & b & Hb & Hbe). exists na. split; [exact Hna|]. assert (n_parsed na = b); [|congruence]. assert (Ha0 := kid_nz g KS q a I Ha).
    destruct (v_node _ _ _ _ (proj1 (proj2 I)) _ _ Ha0 Hna) as (L1 & L2 & L3 & _). destruct (L3 Hda) as (_ & _ & L4 & _). apply (sib_name (KS q) (n_parsed nc) b path (n_parsed na) Hb Hder); [exact (undone_in g KS q a na I Ha Hna Hda)|congruence|].
    destruct (sib_path _ _ _ _ Hb Hder) as [_ Hs]. assert (Hpe : path_end path = path) by (unfold path_end; rewrite Hs; reflexivity). rewrite Hpe, L4 in Hnm. destruct (n_parsed na) as [|?|?|?|?]; cbn in Hnm |- *; try (injection Hnm as <-; reflexivity); [discriminate|]. exfalso. apply Hle. rewrite <- K3, L1. reflexivity.
  Qed.
  Lemma open_parent g KS q z y : RS2 g KS -> done_at g q -> Kid g q z -> Kid g y z -> Open g y -> False.
  Proof. intros R Hq Hz Hy Ho. assert (G := r_gi _ _ R). destruct (all_parents_done g z q y (gi_sh _ _ G) Hz Hy Hq) as (n & Hn & Hd). rewrite (open_elem g y n Ho Hn) in Hd. discriminate. Qed.
  Lemma reach_sib g KS q c nc : RS2 g KS -> done_at g q -> Kid g q c -> get_node g c = Some nc -> n_done nc = false -> forall k, Reach g c k -> forall nk, Kid g q k -> get_node g k = Some nk -> clos_refl_trans parsed (fun b e => SiblingBase (KS q) e b) (n_parsed nc) (n_parsed nk).
  Proof.
    intros R Hq Hc Hnc Hdc k HR. apply clos_rt_rtn1 in HR. assert (Ho : Open g c) by (left; exists nc; auto). assert (G := r_gi _ _ R). assert (I := gi_iv _ _ G). assert (E := proj2 (proj2 I)).
    induction HR as [|y z (t & Hyz) HR IH]; intros nk Hk Hnk; [rewrite Hnc in Hnk; injection Hnk as <-; apply rt_refl|]. assert (Hy : Open g y) by (apply (reach_open g KS c y R Ho); now apply clos_rtn1_rt). destruct (is_child t) eqn:Et.
    - exfalso. apply (open_parent g KS q z y R Hq Hk); [apply ckids_In; eauto|exact Hy].
    - destruct t; try discriminate.
      + exfalso. destruct (w_ph _ E _ _ Hyz) as [(path & n & Hs & Hn & Hd & _)|(_ & path & x & Hs & _)]; [|apply get_node_slot in Hnk; congruence].
        destruct HR as [|y' y Hyy HR]; [apply get_node_slot in Hnc; congruence|]. destruct (r_ph _ _ R y path Hs) as (_ & p & Hpe & Hin). destruct Hyy as (t' & Hyy). assert (X : In (y', y, t') (in_edges g y)) by (apply in_edges_In; auto). rewrite Hin in X. destruct X as [X|[]]. injection X as <- <-.
        apply (open_parent g KS q z p R Hq Hk (w_link _ E _ _ _ Hpe Hyy Hyz)). apply (reach_open g KS c p R Ho). now apply clos_rtn1_rt.
      + destruct (r_der _ _ R _ _ Hyz) as (Hz & p & Kpy & Kpz & Hp). destruct (w_der _ E _ _ Hyz) as (ny & nz & Hny & _). assert (Hyu : undone_at g y) by (exists ny; split; [exact Hny|exact (open_elem g y ny Hy Hny)]).
        assert (Kqy : Kid g q y). { destruct (sh_tw _ (gi_sh _ _ G) z p q y Kpz Hk Kpy) as [K|(e & _ & ny' & _ & Hny' & _ & Hdy & _)]; [exact K|]. exfalso. rewrite Hny in Hny'. injection Hny' as <-. apply (done_undone g y); [exists ny; auto|exact Hyu]. }
        destruct (der_sib g KS q y z nk R Hq Kqy Hk Hyz Hnk Hyu) as (ny' & Hny' & HS). eapply rt_trans; [apply (IH ny' Kqy Hny')|]. apply rt_step. exact HS.
  Qed.
  Lemma deep_no_back g KS q c k n b : RS2 g KS -> done_at g q -> Kid g q c -> Kid g q k -> get_node g c = Some n -> n_done n = false -> SiblingBase (KS q) (n_parsed n) b -> HeadOf g KS (KS q) b k -> ~ Reach g c k.
  Proof.
    intros R Hq Hc Hk Hn Hd Hb (nk & Hnk & Hpk & _) HR. assert (G := r_gi _ _ R). assert (X := reach_sib g KS q c n R Hq Hc Hn Hd k HR nk Hk Hnk). rewrite Hpk in X.
    destruct (HC _ _ (group_done g KS q G Hq) (undone_in g KS q c n (gi_iv _ _ G) Hc Hn Hd)) as (ks & HK). apply (acc_irrefl _ _ (content_acc _ _ _ HK)). apply clos_rt_t with b; [exact X|]. apply t_step. exact Hb.
  Qed.

  (** ** One placeholder *)
  Lemma resolve2 g KS h path : RS2 g KS -> get_slot g h = Some (NPh path) ->
    exists g', resolve_placeholder g h = ret g' /\ RS2 g' KS /\ (forall x, get_node g' x = get_node g x) /\ (forall x p, get_slot g' x = Some (NPh p) -> get_slot g x = Some (NPh p)) /\
      (forall a b, In (a, b, PLACEHOLDER) (g_edges g') -> In (a, b, PLACEHOLDER) (g_edges g)) /\
      ((exists p, In (p, h, PLACEHOLDER) (g_edges g) /\ undone_at g p) /\ g' = g \/ (forall p, get_slot g' h <> Some (NPh p)) /\ g_phs g' = filter (fun p => negb (Nat.eqb p h)) (g_phs g)).
  Proof.
    intros R Hh. assert (G := r_gi _ _ R). destruct (r_ph _ _ R h path Hh) as ((c & Hce & Hout) & p & Hpe & Hin). assert (I := gi_iv _ _ G). assert (V := proj1 (proj2 I)). assert (E := proj2 (proj2 I)).
    assert (Hhc : In (h, c, PLACEHOLDER) (g_edges g)) by (assert (X : In (h, c, PLACEHOLDER) (out_edges g h)) by (rewrite Hout; now left); now apply filter_In in X).
    assert (Hph : In (p, h, PLACEHOLDER) (g_edges g)) by (assert (X : In (p, h, PLACEHOLDER) (in_edges g h)) by (rewrite Hin; now left); now apply filter_In in X).
    assert (Hkid := w_link _ E _ _ _ Hpe Hph Hhc). destruct (w_ph _ E _ _ Hhc) as [(path' & n & Hs & Hn & Hdn & Hd)|(K & _)]; [|apply is_elem_node in K as (m & K); apply get_node_slot in K; congruence].
    rewrite Hh in Hs. injection Hs as <-. assert (Hpn := Hpe). apply is_elem_node in Hpn as (np & Hnp). 
    assert (EP : get_placeholder_parent g h = ret p) by (unfold get_placeholder_parent; rewrite Hin; cbn [filter e_src e_typ fst snd]; rewrite Hpe; reflexivity).
    destruct (n_done np) eqn:Edp.
    2: { exists g. split; [unfold resolve_placeholder; rewrite EP, bind_ret_l, Hnp, Edp; reflexivity|]. split; [exact R|]. split; [reflexivity|]. split; [auto|]. split; [auto|]. left. split; [|reflexivity]. exists p. split; [exact Hph|]. exists np. auto. }
    destruct (deep_found g KS c n path p G (ex_intro _ np (conj Hnp Edp)) Hkid Hn Hdn Hd) as (q & k & b & Kqc & Kqk & Hqd & Hb & HHd & EF).
    assert (NR0 := deep_no_back g KS q c k n b R Hqd Kqc Kqk Hn Hdn Hb HHd).
    assert (NR : ~ Reach (remove_placeholder g h) c k).
    { intros K. apply NR0. clear - K. induction K as [x y (t & K)|x|x y z _ IH1 _ IH2]; [|apply rt_refl|eapply rt_trans; eassumption]. apply rt_step. exists t. cbn in K. now apply filter_In in K. }
    set (g' := mk_graph (g_slots (remove_placeholder g h)) (g_free (remove_placeholder g h)) ((k, c, DERIVE) :: g_edges (remove_placeholder g h)) (g_phs (remove_placeholder g h))).
    assert (EQ : resolve_placeholder g h = ret g').
    { unfold resolve_placeholder. rewrite EP, bind_ret_l, Hnp, Edp. cbn [negb]. unfold get_placeholder_child. rewrite Hout. cbn [filter e_dst e_typ fst snd]. rewrite Hce. cbn [andb etype_eqb map e_dst fst snd]. rewrite bind_ret_l, Hh, Hn, EF, bind_ret_l. unfold add_edge.
      destruct (reaches (remove_placeholder g h) c k) eqn:Er; [apply reaches_spec in Er; contradiction|]. reflexivity. }
    exists g'. split; [exact EQ|].
    assert (Hsl : forall x, x <> h -> get_slot g' x = get_slot g x). { intros x Hne. unfold get_slot, g'. cbn. rewrite nth_set_nth. destruct (Nat.eqb_spec h x) as [<-|_]; [congruence|reflexivity]. }
    assert (Hslh : forall p, get_slot g' h <> Some (NPh p)). { intros p0. unfold get_slot, g'. cbn. rewrite nth_set_nth, Nat.eqb_refl. destruct (Nat.ltb_spec h (length (g_slots g))) as [Hlt|Hge]; cbn; [discriminate|]. rewrite nth_overflow; [discriminate|exact Hge]. }
    assert (HN : forall x, get_node g' x = get_node g x).
    { intros x. destruct (Nat.eq_dec x h) as [->|Hne]; [|apply get_node_same; now apply Hsl]. unfold get_node at 2. rewrite Hh. unfold get_node. destruct (get_slot g' h) as [[m|p0]|] eqn:Es; try reflexivity. exfalso. unfold get_slot, g' in Es. cbn in Es. rewrite nth_set_nth, Nat.eqb_refl in Es. destruct (Nat.ltb_spec h (length (g_slots g))) as [Hlt|Hge]; cbn in Es; [discriminate|]. rewrite nth_overflow in Es; [discriminate|exact Hge]. }
    assert (Hphs : forall x p0, get_slot g' x = Some (NPh p0) -> x <> h /\ get_slot g x = Some (NPh p0)).
    { intros x p0 Hx. assert (x <> h) by (intros ->; exact (Hslh _ Hx)). split; [assumption|]. rewrite <- Hsl by assumption. exact Hx. }
    assert (Hel : forall x, is_elem g' x = is_elem g x) by (intros x; unfold is_elem; now rewrite HN). assert (Hhe : is_elem g h = false) by (unfold is_elem, get_node; rewrite Hh; reflexivity).
    assert (Hke : is_elem g k = true) by (destruct HHd as (m & Hm & _); apply is_elem_node; eauto).
    assert (Hed : forall a b t, In (a, b, t) (g_edges g') <-> (a = k /\ b = c /\ t = DERIVE) \/ In (a, b, t) (g_edges g) /\ a <> h /\ b <> h).
    { intros a b0 t. unfold g', remove_placeholder. cbn [g_edges In]. rewrite filter_In. cbn [e_src e_dst fst snd]. rewrite andb_true_iff, !negb_true_iff, !Nat.eqb_neq. split; [intros [K|K]; [left; injection K as <- <- <-; auto|now right]|intros [(-> & -> & ->)|K]; [now left|now right]]. }
    assert (Hkk : forall a x, Kid g' a x <-> Kid g a x).
    { intros a x. unfold Kid. rewrite !ckids_In. split; intros (t & K & Ht).
      - apply Hed in K as [(_ & _ & ->)|(K & _)]; [discriminate|eauto].
      - destruct (w_child _ E _ _ _ K Ht) as [X Y]. exists t. split; [|exact Ht]. apply Hed. right. split; [exact K|]. split; intros ->; congruence. }
    assert (Hdn' : forall x, done_at g' x <-> done_at g x) by (intros x; unfold done_at; now rewrite HN).
    split; [|split; [exact HN|split; [intros x p0 Hx; exact (proj2 (Hphs x p0 Hx))|split; [intros a b0 K; apply Hed in K as [(_ & _ & K)|(K & _)]; [discriminate|exact K]|right; split; [exact Hslh|reflexivity]]]]].
    split.
    - split; [exact (iv_resolve_ph S nobody g KS h [] g' I EQ)|exact (sh_resolve_ph g h [] g' E (gi_sh _ _ G) EQ)|exact (sc_resolve_ph S NDC g KS h [] g' I (gi_sh _ _ G) (gi_sc _ _ G) EQ)|exact (gi_k0 _ _ G)| | |exact (dv_resolve_ph _ g h [] g' E (gi_dv _ _ G) EQ)].
      + intros a b0 t m K Ht Hm. rewrite HN in Hm. apply Hed in K as [(_ & _ & ->)|(K & _)]; [discriminate|]. exact (gi_de _ _ G a b0 t m K Ht Hm).
      + intros a x Ka Kd. apply Hdn'. apply Hdn' in Kd. apply Hkk in Ka. exact (gi_pd _ _ G a x Ka Kd).
    - intros x nx Hx Hdx Hux. rewrite HN in Hx. destruct (Nat.eq_dec x c) as [->|Hne]; [right; exists k; now left|]. assert (Hxe : is_elem g x = true) by (apply is_elem_node; eauto).
      assert (Hxh : x <> h) by (intros ->; congruence).
      destruct (r_has _ _ R x nx Hx Hdx Hux) as [(h' & K)|(a & K)]; [left; exists h'|right; exists a]; apply Hed; right; (split; [exact K|]); (split; [|exact Hxh]); intros ->.
      + apply Hne. assert (X : In (h, x, PLACEHOLDER) (out_edges g h)) by (apply filter_In; split; [exact K|cbn; apply Nat.eqb_refl]). rewrite Hout in X. destruct X as [X|[]]. now injection X.
      + destruct (w_der _ E _ _ K) as (na & nb & Ha & _). apply get_node_slot in Ha. congruence.
    - intros h' path' Hh'. destruct (Hphs _ _ Hh') as [Hne Hh0]. destruct (r_ph _ _ R h' path' Hh0) as ((c' & Hce' & Hout') & p' & Hpe' & Hin'). assert (Hhe' : is_elem g h' = false) by (unfold is_elem, get_node; rewrite Hh0; reflexivity). split.
      + exists c'. split; [now rewrite Hel|]. unfold out_edges, g', remove_placeholder. cbn [g_edges filter e_src fst]. replace (Nat.eqb k h') with false by (symmetry; apply Nat.eqb_neq; intros ->; congruence).
        rewrite filter_comm. fold (out_edges g h'). rewrite Hout'. cbn [filter e_src e_dst fst snd]. replace (Nat.eqb h' h) with false by (symmetry; now apply Nat.eqb_neq). replace (Nat.eqb c' h) with false by (symmetry; apply Nat.eqb_neq; intros ->; congruence). reflexivity.
      + exists p'. split; [now rewrite Hel|]. unfold in_edges, g', remove_placeholder. cbn [g_edges filter e_dst fst snd]. replace (Nat.eqb c h') with false by (symmetry; apply Nat.eqb_neq; intros ->; congruence).
        rewrite filter_comm. fold (in_edges g h'). rewrite Hin'. cbn [filter e_src e_dst fst snd]. replace (Nat.eqb h' h) with false by (symmetry; now apply Nat.eqb_neq). replace (Nat.eqb p' h) with false by (symmetry; apply Nat.eqb_neq; intros ->; congruence). reflexivity.
    - intros a x K. apply Hed in K as [(-> & -> & _)|(K & _)].
      + split; [exists n; rewrite HN; auto|]. exists q. split; [now apply Hkk|]. split; [now apply Hkk|]. now apply Hdn'.
      + destruct (r_der _ _ R a x K) as ((m & Hm & Hdm) & y & K1 & K2 & K3). split; [exists m; rewrite HN; auto|]. exists y. split; [now apply Hkk|]. split; [now apply Hkk|]. now apply Hdn'.
  Qed.
  (** all of them: those that are left belong to something unprocessed *)
  Definition PhLate (g : graph) : Prop := forall p h path, get_slot g h = Some (NPh path) -> In (p, h, PLACEHOLDER) (g_edges g) -> undone_at g p.
  Lemma resolves2 g KS : RS2 g KS -> exists g', resolve_placeholders g = ret g' /\ RS2 g' KS /\ (forall x, get_node g' x = get_node g x) /\ PhLate g'.
  Proof.
    intros R. unfold resolve_placeholders.
    assert (X : forall l g, RS2 g KS -> NoDup l -> (forall h, In h l -> exists path, get_slot g h = Some (NPh path)) -> exists g', foldM resolve_placeholder g l = ret g' /\ RS2 g' KS /\ (forall x, get_node g' x = get_node g x) /\
       (forall x p, get_slot g' x = Some (NPh p) -> get_slot g x = Some (NPh p)) /\ (forall a b, In (a, b, PLACEHOLDER) (g_edges g') -> In (a, b, PLACEHOLDER) (g_edges g)) /\
       forall h p path, In h l -> get_slot g' h = Some (NPh path) -> In (p, h, PLACEHOLDER) (g_edges g') -> undone_at g' p).
    { clear g R. induction l as [|h l IH]; intros g R Hnd Hl; cbn [foldM]; [exists g; repeat match goal with |- _ /\ _ => split end; auto; intros h p path []|]. inversion Hnd as [|? ? Hnh Hnd']; subst.
      destruct (Hl h (or_introl eq_refl)) as (path & Hh). destruct (resolve2 g KS h path R Hh) as (g1 & E1 & R1 & N1 & P1 & D1 & Hor). rewrite E1, bind_ret_l.
      assert (Hl1 : forall h', In h' l -> exists path', get_slot g1 h' = Some (NPh path')).
      { intros h' Hh'. assert (Hne : h' <> h) by (intros ->; contradiction). destruct (Hl h' (or_intror Hh')) as (path' & Hp'). destruct Hor as [[_ ->]|[_ Hphs]]; [eauto|].
        apply (wf_phs _ (proj1 (gi_iv _ _ (r_gi _ _ R1)))). rewrite Hphs. apply filter_In. split; [apply (wf_phs _ (proj1 (gi_iv _ _ (r_gi _ _ R)))); eauto|]. now apply negb_true_iff, Nat.eqb_neq. }
      destruct (IH g1 R1 Hnd' Hl1) as (g' & E' & R' & N' & P' & D' & HL'). exists g'. split; [exact E'|]. split; [exact R'|]. split; [intros x; now rewrite N'|]. split; [intros x p K; auto|]. split; [auto|].
      intros h' p path' [<-|Hin] Hs K; [|exact (HL' h' p path' Hin Hs K)]. destruct Hor as [[(p' & K1 & K2) ->]|[Hno _]]; [|destruct (Hno path'); auto].
      assert (p' = p). { assert (K0 := D' _ _ K). destruct (r_ph _ _ R h path Hh) as (_ & p0 & _ & Hin). assert (X1 : In (p', h, PLACEHOLDER) (in_edges g h)) by (apply in_edges_In; auto). assert (X2 : In (p, h, PLACEHOLDER) (in_edges g h)) by (apply in_edges_In; auto). rewrite Hin in X1, X2. destruct X1 as [X1|[]], X2 as [X2|[]]. congruence. }
      subst p'. destruct K2 as (m & Hm & Hdm). exists m. rewrite N'. auto. }
    assert (W := proj1 (gi_iv _ _ (r_gi _ _ R))). destruct (X (g_phs g) g R (wf_phs_nd _ W)) as (g' & E' & R' & N' & P' & _ & HL'); [intros h Hh; now apply (wf_phs _ W)|]. exists g'. split; [exact E'|]. split; [exact R'|]. split; [exact N'|].
    intros p h path Hs K. apply (HL' h p path); auto. apply (wf_phs _ W). exists path. auto.
  Qed.

  (** ** The nodes of a round *)
  Definition done_child (g : graph) (c : nat) : Prop := exists q, In (q, c, CHILD_RESOLVED) (g_edges g).
  Lemma incoming g t c : has_incoming g t c = true <-> exists a, In (a, c, t) (g_edges g).
  Proof.
    unfold has_incoming. rewrite existsb_exists. split.
    - intros ([[a b] u] & K1 & K2). apply in_edges_In in K1 as [K1 Kd]. cbn in Kd. subst b. exists a. cbn in K2. destruct u, t; try discriminate; exact K1.
    - intros (a & K). exists (a, c, t). split; [apply in_edges_In; auto|]. destruct t; reflexivity.
  Qed.
  Lemma todo_in g z : WF g -> undone_at g z -> unlinked g z -> done_child g z -> In z (todo g).
  Proof.
    intros W (n & Hn & Hd) Hu (q & Hq). unfold todo. destruct (topological_sorted_spec g (find_processable g) W) as (_ & _ & Hin). apply Hin. assert (U : unprocessed g z = true) by (unfold unprocessed; now rewrite Hn, Hd). split; [|exact U].
    assert (Hroot : In z (unprocessed_root_nodes g)). { unfold unprocessed_root_nodes, unprocessed_nodes. apply filter_In. split; [apply filter_In; split; [apply node_indices_In; apply get_node_slot in Hn; congruence|exact U]|]. apply incoming. eauto. }
    unfold find_processable. apply filter_In. split.
    - set (roots := unprocessed_root_nodes g) in *. assert (Hlen : forall x, (length (processable_succ g x) <= length (out_edges g x))%nat). { intros x. unfold processable_succ. destruct (has_incoming g PLACEHOLDER x); [cbn; lia|]. unfold get_element_childrens. rewrite map_length. apply filter_length_le. }
      destruct (dfs_spec g (processable_succ g) Hlen (dfs_fuel g roots) (rev roots) []) as (_ & Hi2 & _).
      + unfold unvisited_edges, dfs_fuel. rewrite rev_length. assert (X := filter_length_le (fun e => negb (mem_nat (e_src e) [])) (g_edges g)). lia.
      + apply Hi2. now apply -> in_rev.
    - apply negb_true_iff. destruct (has_incoming g PLACEHOLDER z) eqn:Ei; [|reflexivity]. apply incoming in Ei as (a & Ka). destruct (Hu a Ka).
  Qed.
  Lemma todo_from g c : WF g -> In c (todo g) -> undone_at g c /\ unlinked g c /\ (done_child g c \/ exists q, Kid g q c /\ (undone_at g q -> In q (todo g))).
  Proof.
    intros W H. unfold todo in *. destruct (topological_sorted_spec g (find_processable g) W) as (_ & _ & Hin). apply Hin in H as [Hf Hu].
    assert (Hu' : undone_at g c) by (unfold unprocessed in Hu; destruct (get_node g c) as [n|] eqn:En; [|discriminate]; exists n; split; [exact En|now destruct (n_done n)]). split; [exact Hu'|].
    unfold find_processable in Hf. apply filter_In in Hf as [Hf Hp]. apply negb_true_iff in Hp. split; [intros a Ka; assert (X : has_incoming g PLACEHOLDER c = true) by (apply incoming; eauto); congruence|].
    set (roots := unprocessed_root_nodes g) in *. assert (Hlen : forall x, (length (processable_succ g x) <= length (out_edges g x))%nat). { intros x. unfold processable_succ. destruct (has_incoming g PLACEHOLDER x); [cbn; lia|]. unfold get_element_childrens. rewrite map_length. apply filter_length_le. }
    destruct (dfs_spec g (processable_succ g) Hlen (dfs_fuel g roots) (rev roots) []) as (_ & Hi2 & Hi3 & Hi4 & _).
    { unfold unvisited_edges, dfs_fuel. rewrite rev_length. assert (X := filter_length_le (fun e => negb (mem_nat (e_src e) [])) (g_edges g)). lia. }
    set (r := dfs _ _ _ _) in *. destruct (Hi3 c Hf) as [[]|(s & Hs & HR)]. apply in_rev in Hs. unfold sreach in HR. apply clos_rt_rtn1 in HR. destruct HR as [|q c Hqc HR].
    - left. unfold roots, unprocessed_root_nodes in Hs. apply filter_In in Hs as [_ Hs]. apply incoming in Hs. exact Hs.
    - right. exists q. unfold processable_succ in Hqc. destruct (has_incoming g PLACEHOLDER q) eqn:Eq; [destruct Hqc|]. split; [apply element_childrens_In in Hqc as (t & K1 & K2 & _); apply ckids_In; eauto|].
      intros (nq & Hnq & Hdq). apply Hin. split; [|unfold unprocessed; now rewrite Hnq, Hdq]. apply filter_In. split; [|apply negb_true_iff; exact Eq].
      assert (X : forall y, clos_refl_trans_n1 nat (fun a b => In b (processable_succ g a)) s y -> In y r). { intros y Ky. induction Ky as [|y z Hyz _ IH]; [apply Hi2; now apply -> in_rev|]. exact (Hi4 y IH (fun K => K) z Hyz). }
      apply X. exact HR.
  Qed.
  Record RI2 (g : graph) (KS : nat -> list parsed) (l : list nat) : Prop := { t_rs : RS2 g KS; t_todo : forall c, In c l -> undone_at g c /\ unlinked g c;
    t_par : forall c p, In c l -> Kid g p c -> done_at g p \/ Before l p c; t_der : forall a c, In (a, c, DERIVE) (g_edges g) -> In c l /\ (done_at g a \/ Before l a c) }.
  Lemma kid_two g c p q : Sh g -> Kid g p c -> Kid g q c -> undone_at g p -> p = q.
  Proof. intros Hs Hp Hq Hu. destruct (Nat.eq_dec p q) as [E|Hne]; [exact E|]. exfalso. destruct (sh_co _ Hs c p q Hp Hq Hne) as (np & nq & t & Hn & _ & Hd & _). apply (done_undone g p); [exists np; auto|exact Hu]. Qed.
  Lemma done_child_parents g KS c p : GI g KS -> done_child g c -> Kid g p c -> done_at g p.
  Proof.
    intros G (q & Hq) Hp. assert (E := proj2 (proj2 (gi_iv _ _ G))). destruct (w_child _ E _ _ _ Hq eq_refl) as [Hqe _]. apply is_elem_node in Hqe as (nq & Hnq).
    apply (all_parents_done g c q p (gi_sh _ _ G)); [apply ckids_In; eauto|exact Hp|]. exists nq. split; [exact Hnq|]. apply (proj1 (gi_de _ _ G q c CHILD_RESOLVED nq Hq eq_refl Hnq)). reflexivity.
  Qed.
  Lemma parent_done_child g KS c p : GI g KS -> Kid g p c -> done_at g p -> done_child g c.
  Proof. intros G Hk (n & Hn & Hd). apply ckids_In in Hk as (t & Hk & Ht). exists p. rewrite <- (proj2 (gi_de _ _ G p c t n Hk Ht Hn) Hd). exact Hk. Qed.
  Lemma late_unlinked g KS c p : RS2 g KS -> PhLate g -> Kid g p c -> done_at g p -> unlinked g c.
  Proof.
    intros R HL Hk Hp h Hh. assert (G := r_gi _ _ R). assert (E := proj2 (proj2 (gi_iv _ _ G))). assert (Hce : is_elem g c = true) by (apply ckids_In in Hk as (t & K1 & K2); apply (w_child _ E _ _ _ K1 K2)).
    destruct (w_ph _ E _ _ Hh) as [(path & n & Hs & _)|(_ & path & x & Hs & _)]; [|apply is_elem_node in Hce as (m & Hm); apply get_node_slot in Hm; congruence].
    destruct (r_ph _ _ R h path Hs) as (_ & q & Hqe & Hin). assert (Kq : In (q, h, PLACEHOLDER) (g_edges g)) by (assert (X : In (q, h, PLACEHOLDER) (in_edges g h)) by (rewrite Hin; now left); now apply in_edges_In in X).
    apply (done_undone g q); [|exact (HL q h path Hs Kq)]. exact (all_parents_done g c p q (gi_sh _ _ G) Hk (w_link _ E _ _ _ Hqe Kq Hh) Hp).
  Qed.
  Lemma before_fw g l a c : Forward g l -> In a l -> In c l -> Step g a c -> Before l a c.
  Proof. intros HF Ha Hc HS. destruct (HF a c Ha Hc HS) as (l1 & l2 & l3 & E3). exists l1, (l2 ++ c :: l3). split; [exact E3|apply in_elt]. Qed.
  Lemma round2 g KS : RS2 g KS -> PhLate g -> RI2 g KS (todo g).
  Proof.
    intros R HL. assert (G := r_gi _ _ R). assert (W := proj1 (gi_iv _ _ G)). assert (E := proj2 (proj2 (gi_iv _ _ G))). assert (HF : Forward g (todo g)) by exact (proj1 (proj2 (topological_sorted_spec g (find_processable g) W))). split; [exact R| | |].
    - intros c Hc. destruct (todo_from g c W Hc) as (H1 & H2 & _). auto.
    - intros c p Hc Hk. destruct (todo_from g c W Hc) as (_ & _ & [Hdc|(q & Hq & Hqt)]); [left; exact (done_child_parents g KS c p G Hdc Hk)|].
      assert (Hpe : is_elem g p = true) by (apply ckids_In in Hk as (t & K1 & K2); apply (w_child _ E _ _ _ K1 K2)). apply is_elem_node in Hpe as (np & Hnp). destruct (n_done np) eqn:Ed; [left; exists np; auto|]. right.
      assert (Hu : undone_at g p) by (exists np; auto). assert (p = q) by exact (kid_two g c p q (gi_sh _ _ G) Hk Hq Hu). subst q. apply (before_fw g); auto. apply ckids_In in Hk as (t & Hk & _). exists t. exact Hk.
    - intros a c Hac. destruct (r_der _ _ R a c Hac) as (Hu & p & Ka & Kc & Hp). assert (Hct : In c (todo g)) by (apply todo_in; auto; [exact (late_unlinked g KS c p R HL Kc Hp)|exact (parent_done_child g KS c p G Kc Hp)]). split; [exact Hct|].
      destruct (w_der _ E _ _ Hac) as (na & nc & Hna & _). destruct (n_done na) eqn:Ed; [left; exists na; auto|]. right. apply (before_fw g); auto; [|exists DERIVE; exact Hac].
      apply todo_in; auto; [exists na; auto|exact (late_unlinked g KS a p R HL Ka Hp)|exact (parent_done_child g KS a p G Ka Hp)].
  Qed.
  Lemma stuck2 g KS : RS2 g KS -> PhLate g -> todo g = [] -> forall i n, get_node g i = Some n -> n_done n = true.
  Proof.
    intros R HL Et i n Hn. assert (G := r_gi _ _ R). assert (I := gi_iv _ _ G). assert (E := proj2 (proj2 I)). assert (Rt : Rooted g i) by (apply (sh_root _ (gi_sh _ _ G)); apply is_elem_node; eauto).
    assert (K : forall x, Rooted g x -> done_at g x).
    { intros x Rx. apply clos_rt_rtn1 in Rx. induction Rx as [|y z Hyz _ IHR]; [exists root_node; split; [apply (v_root _ _ _ _ (proj1 (proj2 I)))|reflexivity]|].
      assert (Hz : is_elem g z = true) by (apply ckids_In in Hyz as (t & K1 & K2); apply (w_child _ E _ _ _ K1 K2)). apply is_elem_node in Hz as (nz & Hz). exists nz. split; [exact Hz|]. destruct (n_done nz) eqn:Ed; [reflexivity|]. exfalso.
      assert (X : In z (todo g)); [|rewrite Et in X; destruct X]. apply todo_in; [exact (proj1 I)|exists nz; auto|exact (late_unlinked g KS z y R HL Hyz IHR)|exact (parent_done_child g KS z y G Hyz IHR)]. }
    destruct (K i Rt) as (m & Hm & Hd). rewrite Hn in Hm. injection Hm as <-. exact Hd.
  Qed.

  (** ** What processing a node changes *)
  Lemma filter_nil {A} (P : A -> bool) l : (forall x, In x l -> P x = false) -> filter P l = [].
  Proof. induction l as [|x l IH]; intros H; cbn; [reflexivity|]. rewrite (H x (or_introl eq_refl)). apply IH. intros y Hy. apply H. now right. Qed.
  Lemma filter_removed (P : edge -> bool) b i es : (forall t, P (b, i, t) = false) -> filter P (remove_first b i es) = filter P es.
  Proof.
    intros H. induction es as [|e es IH]; [reflexivity|]. cbn [remove_first]. destruct (Nat.eqb (e_src e) b && Nat.eqb (e_dst e) i) eqn:Ee.
    - apply andb_prop in Ee as [E1 E2]. apply Nat.eqb_eq in E1, E2. destruct e as [[x y] t]. cbn in E1, E2. subst. cbn [filter]. now rewrite H.
    - cbn [filter]. now rewrite IH.
  Qed.
  Lemma filter_updated (P : edge -> bool) i c t' es : (forall t, P (i, c, t) = false) -> filter P (update_first i c t' es) = filter P es.
  Proof.
    intros H. induction es as [|e es IH]; [reflexivity|]. cbn [update_first]. destruct (Nat.eqb (e_src e) i && Nat.eqb (e_dst e) c) eqn:Ee.
    - apply andb_prop in Ee as [E1 E2]. apply Nat.eqb_eq in E1, E2. destruct e as [[x y] t]. cbn in E1, E2. subst. cbn [filter]. now rewrite !H.
    - cbn [filter]. now rewrite IH.
  Qed.
  Lemma filter_resolved (P : edge -> bool) i cs : (forall c t, In c cs -> P (i, c, t) = false) -> forall es, filter P (set_resolved es i cs) = filter P es.
  Proof.
    unfold set_resolved. induction cs as [|c cs IH]; intros H es; cbn [fold_left]; [reflexivity|]. rewrite IH; [|intros c' t Hc; apply H; now right]. apply filter_updated. intros t. apply H. now left.
  Qed.
  Record Eff (g g' : graph) (i : nat) : Prop := {
    f_old : forall j m, j <> i -> get_node g j = Some m -> get_node g' j = Some m;
    f_ph : forall h path, get_slot g' h = Some (NPh path) -> get_slot g h = Some (NPh path);
    f_io : forall h path, get_slot g h = Some (NPh path) -> get_slot g' h = Some (NPh path) /\ out_edges g' h = out_edges g h /\ in_edges g' h = in_edges g h;
    f_new : forall x nx, get_node g' x = Some nx -> n_done nx = false -> get_node g x = Some nx \/ derived_of (n_parsed nx) = None;
    f_up : forall p c, Kid g p c -> Kid g' p c;
    f_down : forall p c, Kid g' p c -> get_node g c <> None -> Kid g p c \/ done_at g' p;
    f_der : forall a c, c <> i -> In (a, c, DERIVE) (g_edges g) -> In (a, c, DERIVE) (g_edges g');
    f_de : forall a b t n, In (a, b, t) (g_edges g') -> is_child t = true -> get_node g' a = Some n -> a <> i -> (t = CHILD_RESOLVED <-> n_done n = true);
    f_pd : forall p c, Kid g' p c -> done_at g' c -> p <> i -> c <> i -> done_at g' p }.
  Lemma base_facts g KS i n b bv : RS2 g KS -> i <> 0%nat -> get_node g i = Some n -> n_done n = false -> BaseOf g i n (Some b) bv ->
    exists nb path, derived_of (n_parsed n) = Some path /\ In (b, i, DERIVE) (g_edges g) /\ get_node g b = Some nb /\ b <> 0%nat /\ ~ Desc g b i /\ MayBeBase ps (n_parsed nb).
  Proof.
    intros R H0 Hn Hd [(_ & K & _)|(path & b' & nb & Hder & Eb & Hbe & Hnb & _)]; [discriminate|]. injection Eb as <-. assert (I := gi_iv _ _ (r_gi _ _ R)). assert (He := base_edge g i b Hbe).
    destruct (derived_edge S NDC nobody g KS b i n path I H0 Hn Hd Hder He) as (nb' & Hnb' & Hl & _ & Hb0 & HD & _ & Hor). rewrite Hnb in Hnb'. injection Hnb' as <-. exists nb, path. repeat match goal with |- _ /\ _ => split end; auto.
    destruct Hor as [K|K]; [|exact K]. exfalso. destruct (v_node _ _ _ _ (proj1 (proj2 I)) _ _ H0 Hn) as (L1 & L2 & _). rewrite HE in Hder; [discriminate|exact L2|]. rewrite K in L1. destruct (n_parsed n) as [|?|[?|? ?]|?|?]; try discriminate. exact Logic.I.
  Qed.
  Lemma eff_prepared g KS i n base bv g1 : RS2 g KS -> i <> 0%nat -> get_node g i = Some n -> n_done n = false -> BaseOf g i n base bv -> Prepared g i base g1 -> Eff g g1 i.
  Proof.
    intros R H0 Hn Hd HB HP. assert (G := r_gi _ _ R). assert (I := gi_iv _ _ G). assert (W := proj1 I). assert (E := proj2 (proj2 I)). destruct (prepared_keeps _ _ _ _ W HP) as [W1 K]. destruct base as [b|]; cbn in HP.
    2: { subst g1. split; auto.
      - intros a b t m Hin Ht Hm _. exact (gi_de _ _ G a b t m Hin Ht Hm).
      - intros p c Hk Hdc _ _. exact (gi_pd _ _ G p c Hk Hdc). }
    destruct HP as (m & Rp). destruct (base_facts g KS i n b bv R H0 Hn Hd HB) as (nb & path & Hder & Hbi & Hnb & Hb0 & HND & Hmb).
    assert (Hdesc : forall d j, In (d, j) m -> Desc g b d). { intros d j Hm. apply (desc_remove g b i). apply (rp_dom _ _ _ _ _ Rp). apply in_map_iff. exists (d, j). auto. }
    assert (Hfr : forall d j, In (d, j) m -> get_slot g j = None /\ get_slot g1 j = get_slot g d) by (intros d j Hm; exact (rp_fresh _ _ _ _ _ Rp d j Hm)).
    assert (Hnode : forall d j, In (d, j) m -> get_node g1 j = get_node g d) by (intros d j Hm; unfold get_node; now rewrite (proj2 (Hfr d j Hm))).
    assert (Hnodup : forall d j nd, In (d, j) m -> get_node g d = Some nd -> derived_of (n_parsed nd) = None).
    { intros d j nd Hm Hnd. destruct (derived_of (n_parsed nd)) eqn:Ed; [|reflexivity]. exfalso. apply (no_desc g KS b nb d nd I Hb0 Hnb Hmb (Hdesc d j Hm) Hnd). congruence. }
    assert (Hnoph : forall d j path, In (d, j) m -> get_slot g d <> Some (NPh path)).
    { intros d j p0 Hm Hs. destruct (r_ph _ _ R d p0 Hs) as ((c & Hce & Hout) & _). assert (Hdc : In (d, c, PLACEHOLDER) (g_edges g)) by (assert (X : In (d, c, PLACEHOLDER) (out_edges g d)) by (rewrite Hout; now left); now apply filter_In in X).
      destruct (w_ph _ E _ _ Hdc) as [(p1 & nc & _ & Hnc & _ & Hdrc)|(X & _)]; [|apply is_elem_node in X as (mm & X); apply get_node_slot in X; congruence].
      apply (no_desc g KS b nb c nc I Hb0 Hnb Hmb); [|exact Hnc|congruence]. apply t_trans with d; [exact (Hdesc d j Hm)|]. apply t_step. exists PLACEHOLDER. split; [exact Hdc|discriminate]. }
    assert (Hwhere : forall x, get_slot g1 x <> None -> get_slot g x <> None \/ exists d, In (d, x) m). { intros x Hx. destruct (rp_only _ _ _ _ _ Rp x Hx) as [X|X]; [left; exact X|right]. apply in_map_iff in X as ([d x'] & Ex & X). cbn in Ex. subst x'. eauto. }
    assert (Holdn : forall x nx, get_node g1 x = Some nx -> get_node g x = Some nx \/ exists d, In (d, x) m /\ get_node g d = Some nx).
    { intros x nx Hx. destruct (Hwhere x) as [X|(d & X)]; [apply get_node_slot in Hx; congruence| |right; exists d; split; [exact X|now rewrite <- (Hnode d x X)]]. left. destruct (get_slot g x) as [s|] eqn:Es; [|congruence]. assert (Y := K x s Es). apply get_node_slot in Hx. apply get_node_slot. congruence. }
    destruct (rp_edges _ _ _ _ _ Rp) as (new & Ee & Hnew). cbn [g_edges remove_edge] in Ee.
    assert (Hnew' : forall a c t, In (a, c, t) new -> (exists d, In (d, c) m) /\ ((exists d c0, In (d, a) m /\ In (c0, c) m /\ In (d, c0, t) (g_edges g)) \/ (exists d, In (a, d, DERIVE) (g_edges g) /\ t = DERIVE) \/ a = i)).
    { intros a c t Hin. apply Hnew in Hin as [(d & c0 & K1 & K2 & K3)|[(d & K1 & K2 & ->)|(-> & c0 & t0 & K1 & K2 & _)]].
      - split; [eauto|]. left. exists d, c0. split; [exact K1|]. split; [exact K2|]. exact (remove_first_In _ _ _ _ K3).
      - split; [eauto|]. right. left. exists d. split; [exact (remove_first_In _ _ _ _ K2)|reflexivity].
      - split; [eauto|]. right. now right. }
    assert (Hedge : forall a c t, In (a, c, t) (g_edges g1) -> In (a, c, t) (g_edges g) \/ In (a, c, t) new) by (intros a c t Hin; rewrite Ee in Hin; apply in_app_iff in Hin as [Hin|Hin]; [now right|left; exact (remove_first_In _ _ _ _ Hin)]).
    assert (Hfresh_ph : forall h p0 d, get_slot g h = Some (NPh p0) -> ~ In (d, h) m) by (intros h p0 d Hs Hm; destruct (Hfr d h Hm); congruence).
    split.
    - intros j mj _ Hj. exact (keeps_node _ _ _ _ K Hj).
    - intros h p0 Hh. destruct (Hwhere h) as [X|(d & X)]; [congruence| |].
      + destruct (get_slot g h) as [s|] eqn:Es; [|congruence]. assert (Y := K h s Es). congruence.
      + exfalso. apply (Hnoph d h p0 X). rewrite <- (proj2 (Hfr d h X)). exact Hh.
    - intros h p0 Hh. split; [exact (K h _ Hh)|]. assert (Hih : i <> h) by (intros ->; apply get_node_slot in Hn; congruence). assert (Hbh : b <> h) by (intros ->; apply get_node_slot in Hnb; congruence).
      unfold out_edges, in_edges. rewrite Ee, !filter_app. split.
      + rewrite filter_removed by (intros t; cbn; now apply Nat.eqb_neq). rewrite filter_nil; [reflexivity|]. intros [[a c] t] Hin. cbn. apply Nat.eqb_neq. intros ->. destruct (Hnew' _ _ _ Hin) as (_ & [(d & c0 & K1 & _)|[(d & K1 & _)|K1]]); [exact (Hfresh_ph h p0 d Hh K1)| |congruence].
        destruct (w_der _ E _ _ K1) as (na & _ & Ha & _). apply get_node_slot in Ha. congruence.
      + rewrite filter_removed by (intros t; cbn; now apply Nat.eqb_neq). rewrite filter_nil; [reflexivity|]. intros [[a c] t] Hin. cbn. apply Nat.eqb_neq. intros ->. destruct (Hnew' _ _ _ Hin) as ((d & K1) & _). exact (Hfresh_ph h p0 d Hh K1).
    - intros x nx Hx _. destruct (Holdn x nx Hx) as [X|(d & X1 & X2)]; [now left|right; exact (Hnodup d x nx X1 X2)].
    - intros p c Hk. apply ckids_In in Hk as (t & Hk & Ht). apply ckids_In. exists t. split; [|exact Ht]. rewrite Ee. apply in_app_iff. right. apply remove_first_keep; [exact Hk|]. cbn. intros [-> ->]. apply HND. apply t_step. exists t. split; [exact Hk|destruct t; discriminate].
    - intros p c Hk Hc. left. apply ckids_In in Hk as (t & Hk & Ht). apply ckids_In. exists t. split; [|exact Ht]. destruct (Hedge _ _ _ Hk) as [X|X]; [exact X|]. exfalso. destruct (Hnew' _ _ _ X) as ((d & K1) & _). apply Hc. unfold get_node. now rewrite (proj1 (Hfr d c K1)).
    - intros a c Hc Hin. rewrite Ee. apply in_app_iff. right. apply remove_first_keep; [exact Hin|]. cbn. tauto.
    - intros a c t na Hin Ht Hna Hai. destruct (Hedge _ _ _ Hin) as [X|X].
      + destruct (w_child _ E _ _ _ X Ht) as [Ha _]. apply is_elem_node in Ha as (na' & Ha). assert (Y := keeps_node _ _ _ _ K Ha). rewrite Hna in Y. injection Y as <-. exact (gi_de _ _ G a c t na X Ht Ha).
      + destruct (Hnew' _ _ _ X) as (_ & [(d & c0 & K1 & K2 & K3)|[(d & K1 & ->)|K1]]); [|discriminate|congruence]. rewrite (Hnode d a K1) in Hna. exact (gi_de _ _ G d c0 t na K3 Ht Hna).
    - intros p c Hk (nc & Hc & Hdc) Hpi Hci. apply ckids_In in Hk as (t & Hk & Ht). destruct (Hedge _ _ _ Hk) as [X|X].
      + destruct (w_child _ E _ _ _ X Ht) as [_ Hce]. apply is_elem_node in Hce as (nc' & Hc'). assert (Y := keeps_node _ _ _ _ K Hc'). rewrite Hc in Y. injection Y as <-.
        destruct (gi_pd _ _ G p c) as (np & Hnp & Hdp); [apply ckids_In; eauto|exists nc; auto|]. exists np. split; [exact (keeps_node _ _ _ _ K Hnp)|exact Hdp].
      + destruct (Hnew' _ _ _ X) as (_ & [(d & c0 & K1 & K2 & K3)|[(d & K1 & ->)|K1]]); [|discriminate|congruence]. rewrite (Hnode c0 c K2) in Hc.
        destruct (gi_pd _ _ G d c0) as (np & Hnp & Hdp); [apply ckids_In; eauto|exists nc; auto|]. exists np. split; [rewrite (Hnode d p K1); exact Hnp|exact Hdp].
  Qed.
  Lemma iv_kids g KS : Iv S nobody g KS -> forall i n c t, get_node g i = Some n -> In c (ckids (g_edges g) i) -> In (i, c, t) (g_edges g) -> is_child t = true.
  Proof. intros I i n c t Hn Hc Hin. exact (child_edges S NDC _ g KS i n c t I Hn Hc Hin). Qed.
  Lemma update2 g KS i n base bv v (tmpl : bool) : RS2 g KS -> i <> 0%nat -> get_node g i = Some n -> n_done n = false -> n_processed n = None -> unlinked g i -> (forall p, Kid g p i -> done_at g p) -> BaseOf g i n base bv ->
    ok (update_node g i base v tmpl) /\
    forall ws g', update_node g i base v tmpl = (ws, Ok g') -> WF g' /\ Eff g g' i /\ DEq g' /\ PD g' /\ get_node g' i = Some (mk_node (n_name n) (n_level n) true (n_parsed n) (Some v) (tmpl || n_tmpl n)).
  Proof.
    intros R H0 Hn Hd Hp Hun Hpar HB. assert (G := r_gi _ _ R). assert (I := gi_iv _ _ G). assert (W := proj1 I). split.
    - unfold update_node. assert (X : exists g1 ws, (match base with Some b => replicate_descendants (remove_edge g b i) b i | None => ret g end) = (ws, Ok g1) /\ Prepared g i base g1).
      { destruct base as [b|]; [|exists g, []; split; reflexivity]. assert (W0 := WF_remove_edge g b i W). assert (Hs : get_slot (remove_edge g b i) i <> None) by (change (get_slot g i <> None); apply get_node_slot in Hn; congruence).
        destruct (replicate_ok (remove_edge g b i) b i W0 Hs) as (ws & g1 & E). exists g1, ws. split; [exact E|]. exact (replicate_spec _ _ _ _ _ W0 Hs E). }
      destruct X as (g1 & ws & E1 & HP). rewrite E1. apply ok_bind; [eexists; eexists; reflexivity|]. intros w a X. injection X as _ <-. destruct (prepared_keeps _ _ _ _ W HP) as [_ K]. rewrite (keeps_node _ _ _ _ K Hn), Hp. cbn [is_some]. unfold raise_if. rewrite bind_ret_l. apply ok_ret.
    - intros ws g' H. destruct (update_node_spec _ _ _ _ _ _ _ _ W Hn H) as (g1 & HP & _ & W' & Hs & He & Hph'). set (n' := mk_node _ _ _ _ _ _) in *. set (cs := get_element_childrens _ _) in *.
      destruct (iv_prepared S NDC g KS i n base bv g1 I H0 Hn Hd Hun HB HP) as (KS1 & I1 & _ & _ & Hn1 & _). assert (F := eff_prepared g KS i n base bv g1 R H0 Hn Hd HB HP). destruct (prepared_keeps _ _ _ _ W HP) as [W1 K].
      assert (E1 := proj2 (proj2 I1)). assert (V1 := proj1 (proj2 I1)).
      assert (Hcs : forall c, In c cs -> In c (ckids (g_edges g1) i)). { intros c Hc. apply element_childrens_In in Hc as (t & K1 & K2 & _). apply ckids_In. exists t. auto. }
      assert (Hch : forall c t, In c cs -> In (i, c, t) (g_edges g1) -> is_child t = true) by (intros c t Hc Hin; exact (child_edges S NDC _ g1 KS1 i n c t I1 Hn1 (Hcs c Hc) Hin)).
      destruct (set_resolved_facts i cs (g_edges g1) Hch) as [Hck Hnk].
      assert (Hkid : forall p c, Kid g' p c <-> Kid g1 p c) by (intros p c; unfold Kid; rewrite He, Hck; tauto).
      assert (Hi' : get_node g' i = Some n') by (apply get_node_slot; rewrite Hs, Nat.eqb_refl; reflexivity).
      assert (Hne : forall x, x <> i -> get_slot g' x = get_slot g1 x) by (intros x Hx; rewrite Hs; destruct (Nat.eqb_spec i x); [congruence|reflexivity]).
      assert (Hnode : forall x, x <> i -> get_node g' x = get_node g1 x) by (intros x Hx; apply get_node_same; now apply Hne).
      assert (Hidone : done_at g' i) by (exists n'; split; [exact Hi'|reflexivity]).
      assert (Hdone : forall x, done_at g1 x -> done_at g' x) by (intros x (m & Hm & Hdm); destruct (Nat.eq_dec x i) as [->|Hx]; [exact Hidone|exists m; split; [rewrite Hnode by exact Hx; exact Hm|exact Hdm]]).
      assert (Hph_i : forall h path, get_slot g h = Some (NPh path) -> h <> i) by (intros h path Hh ->; apply get_node_slot in Hn; congruence).
      assert (HEff : Eff g g' i).
      { split.
        - intros j m Hj Hm. rewrite Hnode by exact Hj. exact (f_old _ _ _ F j m Hj Hm).
        - intros h path Hh. apply (f_ph _ _ _ F). rewrite <- Hne; [exact Hh|]. intros ->. apply get_node_slot in Hi'. congruence.
        - intros h path Hh. assert (Hhi := Hph_i h path Hh). destruct (f_io _ _ _ F h path Hh) as (F1 & F2 & F3). split; [rewrite Hne by exact Hhi; exact F1|]. rewrite <- F2, <- F3. unfold out_edges, in_edges. rewrite He.
          split; apply filter_resolved; intros c t Hc; cbn; apply Nat.eqb_neq; [congruence|]. intros ->. apply Hcs in Hc. apply ckids_In in Hc as (u & K1 & K2). destruct (w_child _ E1 _ _ _ K1 K2) as [_ X]. apply is_elem_node in X as (mm & X). apply get_node_slot in X. congruence.
        - intros x nx Hx Hdx. destruct (Nat.eq_dec x i) as [->|Hxi]; [rewrite Hi' in Hx; injection Hx as <-; discriminate|]. rewrite Hnode in Hx by exact Hxi. exact (f_new _ _ _ F x nx Hx Hdx).
        - intros p c Hk. apply Hkid. exact (f_up _ _ _ F p c Hk).
        - intros p c Hk Hc. apply Hkid in Hk. destruct (f_down _ _ _ F p c Hk Hc) as [X|X]; [now left|right; now apply Hdone].
        - intros a c Hc Hin. rewrite He. apply Hnk; [reflexivity|]. exact (f_der _ _ _ F a c Hc Hin).
        - intros a b t m Hin Ht Hm Ha. rewrite He in Hin. apply set_resolved_In in Hin as [Hin|[Hin _]]; [|contradiction]. rewrite Hnode in Hm by exact Ha. exact (f_de _ _ _ F a b t m Hin Ht Hm Ha).
        - intros p c Hk (m & Hm & Hdm) Hpi Hci. apply Hkid in Hk. rewrite Hnode in Hm by exact Hci. apply Hdone. apply (f_pd _ _ _ F p c Hk); auto. exists m. auto. }
      split; [exact W'|]. split; [exact HEff|]. split; [|split; [|exact Hi']].
      + intros a b t m Hin Ht Hm. destruct (Nat.eq_dec a i) as [->|Ha]; [|exact (f_de _ _ _ HEff a b t m Hin Ht Hm Ha)]. rewrite Hi' in Hm. injection Hm as <-. split; [reflexivity|]. intros _. rewrite He in Hin.
        destruct (set_resolved_In _ _ _ _ _ _ Hin) as [K'|[_ K']]; [|exact K']. eapply (set_resolved_all i cs); [apply (v_nd _ _ _ _ V1)|exact Hch|exact Hin|].
        apply element_childrens_In. exists t. split; [exact K'|]. split; [exact Ht|]. destruct (w_child _ E1 _ _ _ K' Ht) as [_ X]. unfold is_elem, get_node. rewrite (set_node_slot g1 i n' n Hn1). destruct (Nat.eqb i b); [reflexivity|exact X].
      + intros p c Hk Hdc. destruct (Nat.eq_dec p i) as [->|Hpi]; [exact Hidone|]. destruct (Nat.eq_dec c i) as [->|Hci]; [|exact (f_pd _ _ _ HEff p c Hk Hdc Hpi Hci)].
        destruct (f_down _ _ _ HEff p i Hk) as [X|X]; [congruence| |exact X]. destruct (Hpar p X) as (m & Hm & Hdm). exists m. split; [exact (f_old _ _ _ HEff p m Hpi Hm)|exact Hdm].
  Qed.
  Lemma eff_done g g' i x : Eff g g' i -> done_at g' i -> done_at g x -> done_at g' x.
  Proof. intros F Hi (m & Hm & Hd). destruct (Nat.eq_dec x i) as [->|Hx]; [exact Hi|]. exists m. split; [exact (f_old _ _ _ F x m Hx Hm)|exact Hd]. Qed.
  Lemma update_dim2 g KS i n base bv vs tv : RS2 g KS -> i <> 0%nat -> get_node g i = Some n -> n_done n = false -> n_processed n = None -> unlinked g i -> (forall p, Kid g p i -> done_at g p) -> BaseOf g i n base bv ->
    ok (update_dim_node g i base vs tv) /\
    forall ws g', update_dim_node g i base vs tv = (ws, Ok g') -> Eff g g' i /\ DEq g' /\ PD g' /\ get_node g' i = Some (mk_node (n_name n) (n_level n) true (n_parsed n) (Some tv) true).
  Proof.
    intros R H0 Hn Hd Hp Hun Hpar HB. assert (G := r_gi _ _ R). assert (I := gi_iv _ _ G). assert (W := proj1 I). destruct (update2 g KS i n base bv tv true R H0 Hn Hd Hp Hun Hpar HB) as [U1 U2]. split.
    - unfold update_dim_node. apply ok_bind; [exact U1|]. intros ws g1 E1. destruct (U2 _ _ E1) as (W1 & F1 & DE1 & PD1 & Hi1). rewrite Hi1. set (n' := mk_node _ _ _ _ _ _) in *.
      assert (Hpar1 : forall p, In p (get_element_parents g1 i) -> get_slot g1 p <> None) by (intros p Hin; apply element_parents_In in Hin as (t & K & _); apply (wf_edge _ W1 _ _ _ K)).
      apply ok_bind; [apply (instances_ok n' (get_element_parents g1 i) vs (g1, [])); [exact W1|exact Hpar1]|]. intros w r Er.
      destruct (add_instances n' (get_element_parents g1 i) vs g1 [] w r W1 Hpar1 Er) as (xs & Wr & Kr & _ & Ej & Hxs & Hnd & Hsl & _ & Ee). rewrite Ej. cbn [app].
      apply all_edges_ok; auto.
      + intros K. apply in_map_iff in K as (x & Ex & Hx). destruct (Hsl x Hx) as [K _]. rewrite Ex in K. apply get_node_slot in Hi1. congruence.
      + assert (Hnew : forall x, In x xs -> In (i_par x) (get_element_parents g1 i)).
        { intros x Hx. assert (K : In (i_par x, i_val x) (list_prod (get_element_parents g1 i) vs)) by (rewrite <- Hxs; apply (in_map (fun x => (i_par x, i_val x))); exact Hx). apply in_prod_iff in K as [K _]. exact K. }
        assert (Hst : forall q j, In j (map i_idx xs) -> Step (fst r) q j -> In q (get_element_parents g1 i)).
        { intros q j Hj (t & K). rewrite Ee in K. apply in_app_iff in K as [K|K].
          - apply in_rev, in_map_iff in K as (x & Ex & Hx). injection Ex as <- _ _. now apply Hnew.
          - exfalso. apply in_map_iff in Hj as (x & <- & Hx). destruct (Hsl x Hx) as [Hnone _]. destruct (wf_edge _ W1 _ _ _ K). contradiction. }
        assert (Hup : forall q, In q (get_element_parents g1 i) -> Step (fst r) q i). { intros q K. apply element_parents_In in K as (t & K & _). exists t. rewrite Ee. apply in_app_iff. now right. }
        intros j Hj. split; [|split].
        * apply in_map_iff in Hj as (x & <- & Hx). destruct (Hsl x Hx) as [_ K]. congruence.
        * intros q K. apply Hup. now apply (Hst q j).
        * intros K. apply element_childrens_In in K as (t & K & _). assert (K' := Hst i j Hj (ex_intro _ t K)). apply Hup in K'. apply (wf_acyclic _ Wr i i K'). apply rt_refl.
    - intros ws g' H. destruct (update_dim_node_spec _ _ _ _ _ _ _ _ W Hn H) as (g1 & xs & (w & E1) & W' & K & Hph' & Hxs & _ & Hsl & Hold & Ee). destruct (U2 _ _ E1) as (W1 & F & DE1 & PD1 & Hi1).
      assert (Hparx : forall x, In x xs -> exists t, In (i_par x, i, t) (g_edges g1) /\ is_child t = true).
      { intros x Hx. assert (X : In (i_par x, i_val x) (list_prod (get_element_parents g1 i) vs)) by (rewrite <- Hxs; apply (in_map (fun x => (i_par x, i_val x))); exact Hx). apply in_prod_iff in X as [X _]. apply element_parents_In in X as (t & X1 & X2 & _). eauto. }
      assert (Hnodes : forall x nx, get_node g' x = Some nx -> get_node g1 x = Some nx \/ n_done nx = true /\ In x (map i_idx xs)).
      { intros x nx Hx. destruct (in_dec Nat.eq_dec x (map i_idx xs)) as [X|X]; [right|left; rewrite <- (get_node_same _ _ _ (Hold x X)); exact Hx]. split; [|exact X]. apply in_map_iff in X as (y & <- & Hy). destruct (Hsl y Hy) as [_ X]. apply get_node_slot in Hx. rewrite X in Hx. injection Hx as <-. reflexivity. }
      assert (Hi' : get_node g' i = Some (mk_node (n_name n) (n_level n) true (n_parsed n) (Some tv) true)) by exact (keeps_node _ _ _ _ K Hi1). assert (Hidone1 : done_at g1 i) by (eexists; split; [exact Hi1|reflexivity]).
      assert (Hdone : forall x, done_at g1 x -> done_at g' x) by (intros x (m & Hm & Hdm); exists m; split; [exact (keeps_node _ _ _ _ K Hm)|exact Hdm]).
      assert (Hcases : forall a b t, In (a, b, t) (g_edges g') -> In (a, b, t) (g_edges g1) \/ t = CHILD_RESOLVED /\ (In a (map i_idx xs) /\ In b (get_element_childrens g1 i) \/ (exists u, In (a, i, u) (g_edges g1) /\ is_child u = true) /\ In b (map i_idx xs))).
      { intros a b t Hin. rewrite Ee in Hin. apply in_app_iff in Hin as [Hin|Hin]; [|apply in_app_iff in Hin as [Hin|Hin]; [|now left]]; right; apply in_rev, in_map_iff in Hin as (x & Ex & Hx).
        - injection Ex as <- <- <-. split; [reflexivity|]. left. destruct x as [j c]. apply in_prod_iff in Hx as [X1 X2]. cbn. auto.
        - injection Ex as <- <- <-. split; [reflexivity|]. right. split; [exact (Hparx x Hx)|]. apply in_map. exact Hx. }
      assert (Hjdone : forall j, In j (map i_idx xs) -> done_at g' j) by (intros j Hj; apply in_map_iff in Hj as (x & <- & Hx); destruct (Hsl x Hx) as [_ X]; eexists; split; [apply get_node_slot; exact X|reflexivity]).
      assert (Hpi : forall p t, In (p, i, t) (g_edges g1) -> is_child t = true -> done_at g1 p).
      { intros p t Hin Ht. apply (PD1 p i); [apply ckids_In; eauto|exact Hidone1]. }
      assert (Hel1 : forall a b t, In (a, b, t) (g_edges g1) -> get_slot g1 a <> None /\ get_slot g1 b <> None) by (intros a b t X; exact (wf_edge _ W1 _ _ _ X)).
      assert (HEff : Eff g g' i).
      { split.
        - intros j m Hj Hm. apply (keeps_node _ _ _ _ K). exact (f_old _ _ _ F j m Hj Hm).
        - intros h path Hh. apply (f_ph _ _ _ F). destruct (in_dec Nat.eq_dec h (map i_idx xs)) as [X|X]; [|rewrite <- (Hold h X); exact Hh]. apply in_map_iff in X as (y & <- & Hy). destruct (Hsl y Hy) as [_ X]. congruence.
        - intros h path Hh. destruct (f_io _ _ _ F h path Hh) as (F1 & F2 & F3). split; [exact (K h _ F1)|]. rewrite <- F2, <- F3. unfold out_edges, in_edges. rewrite Ee, !filter_app.
          assert (Hhx : ~ In h (map i_idx xs)) by (intros X; apply in_map_iff in X as (y & <- & Hy); destruct (Hsl y Hy) as [X _]; congruence).
          split; (rewrite filter_nil; [rewrite filter_nil; [reflexivity|]|]); intros [[a b] t] Hin; cbn; apply Nat.eqb_neq; intros ->; apply in_rev, in_map_iff in Hin as (x & Ex & Hx); injection Ex as X1 X2 _.
          + subst h. destruct (Hparx x Hx) as (t' & X3 & X4).
            assert (Y : is_elem g1 (i_par x) = true). { assert (Z : In (i_par x) (get_element_parents g1 i)). { assert (X : In (i_par x, i_val x) (list_prod (get_element_parents g1 i) vs)) by (rewrite <- Hxs; apply (in_map (fun x => (i_par x, i_val x))); exact Hx). now apply in_prod_iff in X as [X _]. } apply element_parents_In in Z as (t0 & _ & _ & Z). exact Z. }
            apply is_elem_node in Y as (mm & Y). apply get_node_slot in Y. congruence.
          + subst h. destruct x as [j c]. apply in_prod_iff in Hx as [X3 X4]. cbn in *. contradiction.
          + subst h. apply Hhx. apply in_map. exact Hx.
          + subst h. destruct x as [j c]. apply in_prod_iff in Hx as [X3 X4]. cbn in *. apply element_childrens_In in X4 as (t0 & _ & _ & Z). apply is_elem_node in Z as (mm & Z). apply get_node_slot in Z. congruence.
        - intros x nx Hx Hdx. destruct (Hnodes x nx Hx) as [X|[X _]]; [|congruence]. exact (f_new _ _ _ F x nx X Hdx).
        - intros p c Hk. assert (X := f_up _ _ _ F p c Hk). apply ckids_In in X as (t & X & Ht). apply ckids_In. exists t. split; [|exact Ht]. rewrite Ee. apply in_app_iff. right. apply in_app_iff. now right.
        - intros p c Hk Hc. apply ckids_In in Hk as (t & Hk & Ht). destruct (Hcases _ _ _ Hk) as [X|(_ & [[X _]|[X Y]])].
          + destruct (f_down _ _ _ F p c) as [Z|Z]; [apply ckids_In; eauto|exact Hc|now left|right; now apply Hdone].
          + right. now apply Hjdone.
          + exfalso. apply in_map_iff in Y as (y & <- & Hy). destruct (Hsl y Hy) as [Y _]. apply Hc. destruct (get_node g (i_idx y)) as [m|] eqn:Em; [|reflexivity]. exfalso.
            destruct (Nat.eq_dec (i_idx y) i) as [Z|Z]; [rewrite Z in Y; apply get_node_slot in Hi1; congruence|]. assert (Q := f_old _ _ _ F _ m Z Em). apply get_node_slot in Q. congruence.
        - intros a c Hc Hin. rewrite Ee. apply in_app_iff. right. apply in_app_iff. right. exact (f_der _ _ _ F a c Hc Hin).
        - intros a b t m Hin Ht Hm Ha. destruct (Hcases _ _ _ Hin) as [X|(-> & [[X _]|[(u & X & Hu) _]])].
          + destruct (Hnodes a m Hm) as [Y|[_ Y]]; [exact (DE1 a b t m X Ht Y)|]. exfalso. apply in_map_iff in Y as (y & <- & Hy). destruct (Hsl y Hy) as [Y _]. destruct (Hel1 _ _ _ X). contradiction.
          + destruct (Hjdone a X) as (m' & Hm' & Hd'). rewrite Hm in Hm'. injection Hm' as <-. split; auto.
          + destruct (Hdone a (Hpi a u X Hu)) as (m' & Hm' & Hd'). rewrite Hm in Hm'. injection Hm' as <-. split; auto.
        - intros p c Hk (m & Hm & Hdm) Hpi' Hci. apply ckids_In in Hk as (t & Hk & Ht). destruct (Hcases _ _ _ Hk) as [X|(_ & [[X _]|[(u & X & Hu) _]])]; [|now apply Hjdone|exact (Hdone p (Hpi p u X Hu))].
          apply Hdone. apply (PD1 p c); [apply ckids_In; eauto|]. destruct (Hnodes c m Hm) as [Y|[_ Y]]; [exists m; auto|]. exfalso. apply in_map_iff in Y as (y & <- & Hy). destruct (Hsl y Hy) as [Y _]. destruct (Hel1 _ _ _ X). contradiction. }
      assert (Hidone : done_at g' i) by (eexists; split; [exact Hi'|reflexivity]). split; [exact HEff|]. split; [|split; [|exact Hi']].
      + intros a b t m Hin Ht Hm. destruct (Nat.eq_dec a i) as [->|Ha]; [|exact (f_de _ _ _ HEff a b t m Hin Ht Hm Ha)]. rewrite Hi' in Hm. injection Hm as <-. split; [reflexivity|]. intros _. destruct (Hcases _ _ _ Hin) as [X|(X & _)]; [|exact X].
        exact (proj2 (DE1 i b t _ X Ht Hi1) eq_refl).
      + intros p c Hk Hdc. destruct (Nat.eq_dec p i) as [->|Hp']; [exact Hidone|]. destruct (Nat.eq_dec c i) as [->|Hci]; [|exact (f_pd _ _ _ HEff p c Hk Hdc Hp' Hci)].
        destruct (f_down _ _ _ HEff p i Hk) as [X|X]; [congruence| |exact X]. exact (eff_done g g' i p HEff Hidone (Hpar p X)).
  Qed.

  (** ** Processing one node *)
  (** the elements are acceptable, given the value of their base *)
  Context (HL : forall sibs e, Group ps sibs -> In e sibs -> ~ is_evc e -> derived_of e = None -> LocalOk e None)
    (HLB : forall sibs e b kb vsb tvb bv, Group ps sibs -> In e sibs -> ~ is_evc e -> SiblingBase sibs e b -> Elab ps sibs b kb vsb tvb -> val_of vsb tvb bv -> LocalOk e (Some bv)).
  Lemma not_before i l a : NoDup (i :: l) -> ~ Before (i :: l) a i.
  Proof. intros Hnd (l1 & l2 & E & Hin). inversion Hnd as [|? ? Hni _]; subst. apply Hni. destruct l1 as [|x l1]; cbn in E; injection E as -> ->; [exact Hin|]. apply in_app_iff. right. now right. Qed.
  Lemma before_tail i l a c : a <> i -> Before (i :: l) a c -> Before l a c.
  Proof. intros Ha (l1 & l2 & E & Hin). destruct l1 as [|x l1]; cbn in E; injection E as E1 E2; [congruence|]. exists l1, l2. auto. Qed.
  Lemma base_ready2 g KS i l n : RI2 g KS (i :: l) -> NoDup (i :: l) -> i <> 0%nat -> get_node g i = Some n -> n_done n = false -> exists base bv, BaseOf g i n base bv /\ (~ is_evc (n_parsed n) -> LocalOk (n_parsed n) bv) /\
    (process_node g i = match n_parsed n with PaEvc _ => process_evc_node g i base | PaDev => process_node g i | p => process_dimable g i p base bv end).
  Proof.
    intros T Hnd H0 Hn Hd. assert (R := t_rs _ _ _ T). assert (G := r_gi _ _ R). assert (I := gi_iv _ _ G). assert (V := proj1 (proj2 I)). destruct (t_todo _ _ _ T i (or_introl eq_refl)) as [Hu Hun].
    assert (Hpar : forall p, Kid g p i -> done_at g p) by (intros p Hk; destruct (t_par _ _ _ T i p (or_introl eq_refl) Hk) as [K|K]; [exact K|destruct (not_before _ _ _ Hnd K)]).
    destruct (derived_of (n_parsed n)) as [path|] eqn:Eder.
    - destruct (r_has _ _ R i n Hn) as [(h & K)|(a0 & Ha0)]; [congruence|exact Hd|destruct (Hun h K)|]. destruct (base_found g i a0 Ha0) as (b & Hb). assert (Hbe := base_edge _ _ _ Hb).
      destruct (t_der _ _ _ T _ _ Hbe) as (_ & [(nb & Hnb & Hdb)|K]); [|destruct (not_before _ _ _ Hnd K)]. destruct (r_der _ _ R _ _ Hbe) as (_ & p & Kb & Ki & Hp).
      destruct (w_der _ (proj2 (proj2 I)) _ _ Hbe) as (nb' & n' & X1 & X2 & Hl & Hnm). rewrite Hnb in X1. injection X1 as <-. rewrite Hn in X2. injection X2 as <-. destruct Hnm as [[K _]|(path' & K & Hnm)]; [congruence|]. rewrite Eder in K. injection K as <-.
      destruct (sib_of g KS p i n path G Hp Ki Hn Hd Eder) as (_ & Hle & Hlv & Hin & bb & Hbb & Hbev). destruct (base_node g KS p (n_parsed n) bb path G Hp Hin Hbb Eder Hbev) as (k & Kk & (nk & Hnk & Hpk & _ & HEk) & Huk).
      assert (Hpe : path_end path = path) by (destruct (sib_path _ _ _ _ Hbb Eder) as [_ Hs]; unfold path_end; rewrite Hs; reflexivity).
      assert (b = k) by (apply (Huk b nb Kb Hnb); congruence). subst k. rewrite Hnb in Hnk. injection Hnk as <-. destruct (HEk Hdb) as (vs & tv & v & HEl & Hv & Hval).
      exists (Some b), (Some v). split; [|split].
      + right. exists path, b, nb. split; [exact Eder|]. split; [reflexivity|]. split; [exact Hb|]. split; [exact Hnb|]. split; [exact Hl|]. split; [now symmetry|]. discriminate.
      + intros Hev. eapply HLB; [exact (group_done g KS p G Hp)|exact Hin|exact Hev|exact Hbb|exact HEl|exact Hval].
      + assert (Hev : ~ is_evc (n_parsed n)) by (intros K; apply Hle; rewrite Hlv; destruct (n_parsed n); destruct K; reflexivity). destruct (v_node _ _ _ _ V _ _ H0 Hn) as (_ & HDc & _).
        destruct (n_parsed n) eqn:Ep; try reflexivity; [| | |destruct Hev; exact Logic.I]; unfold process_node; rewrite Hn, Ep; unfold raise_if at 1; rewrite bind_ret_l, Eder, Hb, Hnb, Hl, level_eqb_refl; cbn [negb]; rewrite Hv; unfold raise_if; rewrite !bind_ret_l; reflexivity.
    - exists None, None. split; [left; auto|]. split.
      + intros Hev. destruct (has_parent ps g KS i n I (gi_sh _ _ G) H0 Hn) as [p Kp]. apply (HL (KS p)); auto; [exact (group_done g KS p G (Hpar p Kp))|exact (undone_in g KS p i n I Kp Hn Hd)].
      + destruct (n_parsed n) eqn:Ep; try reflexivity; unfold process_node; rewrite Hn, Ep; unfold raise_if; rewrite !bind_ret_l, Eder, bind_ret_l; reflexivity.
  Qed.
  Lemma step2 g KS i l n : RI2 g KS (i :: l) -> NoDup (i :: l) -> i <> 0%nat -> get_node g i = Some n -> n_done n = false ->
    ok (process_node g i) /\ forall ws g', process_node g i = (ws, Ok g') -> Eff g g' i /\ DEq g' /\ PD g' /\ exists n', get_node g' i = Some n' /\ n_done n' = true /\ n_parsed n' = n_parsed n.
  Proof.
    intros T Hnd H0 Hn Hd. assert (R := t_rs _ _ _ T). assert (G := r_gi _ _ R). assert (I := gi_iv _ _ G). assert (W := proj1 I). assert (V := proj1 (proj2 I)). destruct (t_todo _ _ _ T i (or_introl eq_refl)) as [Hu Hun].
    assert (Hpar : forall p, Kid g p i -> done_at g p) by (intros p Hk; destruct (t_par _ _ _ T i p (or_introl eq_refl) Hk) as [K|K]; [exact K|destruct (not_before _ _ _ Hnd K)]).
    destruct (v_node _ _ _ _ V _ _ H0 Hn) as (L1 & L2 & L3 & _). destruct (L3 Hd) as (Hp & Ht & _). assert (Hdev : n_parsed n <> PaDev) by (intros X; rewrite X in L2; exact L2).
    destruct (base_ready2 g KS i l n T Hnd H0 Hn Hd) as (base & bv & HB & HLo & EQ).
    assert (Hor : (exists e, n_parsed n = PaEvc e) \/ ~ is_evc (n_parsed n)) by (destruct (n_parsed n); cbn; eauto).
    destruct Hor as [(e & He)|He].
    - assert (Hb : base = None). { destruct HB as [(_ & -> & _)|(path & b & nb & K & _)]; [reflexivity|]. rewrite (HE _ L2) in K; [discriminate|]. rewrite He. exact Logic.I. } subst base.
      rewrite He in EQ. rewrite EQ. unfold process_evc_node. rewrite bind_ret_l, Hn. split; [apply ok_ret|]. intros ws g' H. apply ret_ok in H as [<- _]. set (n' := mk_node _ _ _ _ _ _).
      assert (Hsl := set_node_slot g i n' n Hn). assert (Hk0 := evc_no_kids ps g KS i n e (iv_loose ps nobody g KS I) H0 Hn He).
      assert (Hno : forall b t, In (i, b, t) (g_edges g) -> is_child t = true -> False) by (intros b t K1 K2; assert (X : In b (ckids (g_edges g) i)) by (apply ckids_In; eauto); rewrite Hk0 in X; destruct X).
      assert (Hg : forall x m, get_node (set_node g i n') x = Some m -> x <> i -> get_node g x = Some m) by (intros x m Hx Hxi; apply get_node_slot in Hx; rewrite Hsl in Hx; destruct (Nat.eqb i x) eqn:Ex; [apply Nat.eqb_eq in Ex; congruence|now apply get_node_slot]).
      assert (Hn' : get_node (set_node g i n') i = Some n') by (apply get_node_slot; rewrite Hsl; now rewrite Nat.eqb_refl).
      assert (Hold : forall j m, j <> i -> get_node g j = Some m -> get_node (set_node g i n') j = Some m). { intros j m Hj Hm. apply get_node_slot. rewrite Hsl. destruct (Nat.eqb i j) eqn:Ej; [apply Nat.eqb_eq in Ej; congruence|now apply get_node_slot]. }
      assert (HDE : DEq (set_node g i n')). { intros a b t m Hin Hch Hm. destruct (Nat.eq_dec a i) as [->|Ha]; [destruct (Hno b t Hin Hch)|]. exact (gi_de _ _ G a b t m Hin Hch (Hg a m Hm Ha)). }
      assert (HPD : PD (set_node g i n')). { intros p c Hk (m & Hm & Hdm). change (Kid g p c) in Hk. assert (K : done_at g p). { destruct (Nat.eq_dec c i) as [->|Hc]; [now apply Hpar|]. apply (gi_pd _ _ G p c Hk). exists m. split; [exact (Hg c m Hm Hc)|exact Hdm]. }
        destruct K as (mp & Hmp & Hdp). destruct (Nat.eq_dec p i) as [->|Hpi]; [congruence|]. exists mp. split; [exact (Hold p mp Hpi Hmp)|exact Hdp]. }
      split; [|split; [exact HDE|split; [exact HPD|exists n'; split; [exact Hn'|split; reflexivity]]]]. split.
      + exact Hold.
      + intros h path Hh. rewrite Hsl in Hh. destruct (Nat.eqb i h); [discriminate|exact Hh].
      + intros h path Hh. split; [|split; reflexivity]. rewrite Hsl. destruct (Nat.eqb i h) eqn:Ei; [apply Nat.eqb_eq in Ei; subst h; apply get_node_slot in Hn; congruence|exact Hh].
      + intros x nx Hx Hdx. left. apply Hg; [exact Hx|]. intros ->. rewrite Hn' in Hx. injection Hx as <-. discriminate.
      + intros p c K. exact K.
      + intros p c K _. left. exact K.
      + intros a c _ K. exact K.
      + intros a b t m K1 K2 K3 _. exact (HDE a b t m K1 K2 K3).
      + intros p c K1 K2 _ _. exact (HPD p c K1 K2).
    - destruct (HLo He) as (w & isd & names & displays & w' & v & vs & E1 & E2). assert (Hevc : forall e, n_parsed n <> PaEvc e) by (intros e K; apply He; rewrite K; exact Logic.I).
      destruct (base_value S NDC g KS i n base bv I H0 Hn Hd Hevc HB) as [Hsame _]. assert (HDe := created_described _ _ _ _ _ _ _ _ _ Hsame E1 E2).
      assert (EQ' : process_node g i = process_dimable g i (n_parsed n) base bv) by (destruct (n_parsed n); try exact EQ; [congruence|destruct (Hevc _ eq_refl)]). clear EQ. rewrite EQ'.
      unfold process_dimable. rewrite E1. destruct isd.
      + set (tv := with_name (parsed_name (n_parsed n)) v) in *. destruct (update_dim2 g KS i n base bv (map without_dim (v :: vs)) tv R H0 Hn Hd Hp Hun Hpar HB) as [U1 U2]. split.
        * apply ok_bind; [eexists; eexists; reflexivity|]. intros ? ? X. injection X as _ <-. apply ok_bind; [eexists; eexists; exact E2|]. intros ? ? X. rewrite E2 in X. injection X as _ <-. exact U1.
        * intros ws g' H. apply bind_ok in H as (? & ? & ? & X & H & _). injection X as _ <-. apply bind_ok in H as (? & ? & ? & X & H & _). rewrite E2 in X. injection X as _ <-. destruct (U2 _ _ H) as (U3 & U4 & U5 & U6).
          split; [exact U3|]. split; [exact U4|]. split; [exact U5|]. eexists. split; [exact U6|]. split; reflexivity.
      + destruct HDe as [-> HDe]. destruct (update2 g KS i n base bv v false R H0 Hn Hd Hp Hun Hpar HB) as [U1 U2]. split.
        * apply ok_bind; [eexists; eexists; reflexivity|]. intros ? ? X. injection X as _ <-. apply ok_bind; [eexists; eexists; exact E2|]. intros ? ? X. rewrite E2 in X. injection X as _ <-. exact U1.
        * intros ws g' H. apply bind_ok in H as (? & ? & ? & X & H & _). injection X as _ <-. apply bind_ok in H as (? & ? & ? & X & H & _). rewrite E2 in X. injection X as _ <-. destruct (U2 _ _ H) as (_ & U3 & U4 & U5 & U6).
          split; [exact U3|]. split; [exact U4|]. split; [exact U5|]. eexists. split; [exact U6|]. split; reflexivity.
  Qed.
  Lemma quiet4 : forall a e, MayBeBase ps a -> Inside a e -> ~ derived_in L4 e.
  Proof. intros a e Ha Hi [_ K]. apply K. eapply Quiet; eassumption. Qed.
  Lemma process2 g KS i l : RI2 g KS (i :: l) -> NoDup (i :: l) -> i <> 0%nat -> ok (process_node g i) /\ forall ws g', process_node g i = (ws, Ok g') ->
    exists KS', RI2 g' KS' l /\ done_at g' i /\ forall j m, j <> i -> get_node g j = Some m -> get_node g' j = Some m.
  Proof.
    intros T Hnd H0. assert (R := t_rs _ _ _ T). assert (G := r_gi _ _ R). assert (I := gi_iv _ _ G). destruct (t_todo _ _ _ T i (or_introl eq_refl)) as [Hu Hun]. assert (Hu' := Hu). destruct Hu' as (n & Hn & Hd).
    destruct (step2 g KS i l n T Hnd H0 Hn Hd) as [P1 P2]. split; [exact P1|]. intros ws g' E. destruct (P2 _ _ E) as (F & HDE & HPD & n' & Hn' & Hd' & Hpe). clear P1 P2. inversion Hnd as [|? ? Hil Hnd']; subst.
    assert (Hidone : done_at g' i) by (exists n'; auto).
    destruct (sc_process ps NDC g KS i ws g' I (gi_sh _ _ G) (gi_sc _ _ G) H0 Hu Hun E) as (KS1 & I1 & S1 & C1 & E1 & Hst). assert (IL := iv_loose ps nobody g KS I).
    assert (D1 := dv_process ps NDC L4 (fun K => K eq_refl) g KS i ws g' IL (gi_dv _ _ G) H0 Hu Hun (waiting_static ps NDC L4 g KS i n quiet4 (fun K => K eq_refl) IL H0 Hn Hd) E).
    destruct (process_effect ps NDC g KS i ws g' IL H0 Hu Hun E) as [_ HEf].
    assert (HDer : forall a c, In (a, c, DERIVE) (g_edges g') -> In (a, c, DERIVE) (g_edges g) /\ c <> i).
    { intros a c Hin. assert (Hin0 : In (a, c, DERIVE) (g_edges g)).
      { destruct (HEf _ _ Hin) as [K|(b & d & a' & K1 & K2 & K3)]; [exact K|]. exfalso. destruct (r_der _ _ R _ _ K3) as ((nd & Hnd2 & Hdd) & _). destruct (w_der _ (proj2 (proj2 I)) _ _ K3) as (_ & nd' & _ & X & _ & [[Y _]|(pd & Y & _)]); rewrite Hnd2 in X; injection X as <-; [congruence|].
        destruct (w_der _ (proj2 (proj2 I)) _ _ K1) as (nb & n0 & Hnb & X & _ & [[Z _]|(path & Z & _)]); rewrite Hn in X; injection X as <-; [congruence|].
        destruct (derived_edge S NDC nobody g KS b i n path I H0 Hn Hd Z K1) as (nb' & Hnb' & Hl & _ & Hb0 & HD & _ & Hor). rewrite Hnb in Hnb'. injection Hnb' as <-.
        destruct Hor as [K|K]; [|apply (no_desc g KS b nb d nd I Hb0 Hnb K K2 Hnd2); congruence]. destruct (v_node _ _ _ _ (proj1 (proj2 I)) _ _ H0 Hn) as (L1 & L2 & _). rewrite HE in Z; [discriminate|exact L2|]. rewrite K in L1. destruct (n_parsed n) as [|?|[?|? ?]|?|?]; try discriminate. exact Logic.I. }
      split; [exact Hin0|]. intros ->. destruct (w_der _ (proj2 (proj2 I)) _ _ Hin0) as (_ & n0 & _ & X & _ & [[Z _]|(path & Z & _)]); rewrite Hn in X; injection X as <-; [congruence|]. assert (X := D1 i n' Hn'). rewrite Hpe, Hd' in X.
      assert (Y : nin (g_edges g') i = 0%nat).
      { assert (nin (g_edges g') i <= 0)%nat; [|lia]. apply X. split; [|congruence]. unfold L4. intros K. destruct (v_node _ _ _ _ (proj1 (proj2 I)) _ _ H0 Hn) as (_ & L2 & _). rewrite HE in Z; [discriminate|exact L2|]. destruct (n_parsed n) as [|?|[?|? ?]|?|?]; try discriminate. exact Logic.I. }
      assert (Z' := nin_In _ _ _ _ Y Hin). discriminate. }
    assert (Hdn : forall x, done_at g x -> done_at g' x) by (intros x; exact (eff_done g g' i x F Hidone)).
    assert (Hun' : forall c, c <> i -> undone_at g c -> undone_at g' c) by (intros c Hc (m & Hm & Hdm); exists m; split; [exact (f_old _ _ _ F c m Hc Hm)|exact Hdm]).
    exists KS1. split; [|split; [exact Hidone|exact (f_old _ _ _ F)]]. split.
    - split.
      + split; auto. rewrite E1. exact (gi_k0 _ _ G).
      + intros c nc Hc Hder Hdc. destruct (f_new _ _ _ F c nc Hc Hdc) as [K|K]; [|congruence]. destruct (r_has _ _ R c nc K Hder Hdc) as [(h & X)|(a & X)].
        * left. exists h. destruct (w_ph _ (proj2 (proj2 I)) _ _ X) as [(path & m & Hs & _)|(_ & path & x & Hs & _)]; [|apply get_node_slot in K; congruence].
          destruct (f_io _ _ _ F h path Hs) as (_ & Fo & _). assert (Y : In (h, c, PLACEHOLDER) (out_edges g h)) by (apply out_edges_In; auto). rewrite <- Fo in Y. now apply out_edges_In in Y.
        * right. exists a. apply (f_der _ _ _ F); [|exact X]. intros ->. rewrite Hn' in Hc. injection Hc as <-. congruence.
      + intros h path Hh. assert (Hh0 := f_ph _ _ _ F h path Hh). destruct (f_io _ _ _ F h path Hh0) as (_ & Fo & Fi). destruct (r_ph _ _ R h path Hh0) as [(c & Hc & Ho) (p & Hp & Hi)].
        assert (Hel : forall x, is_elem g x = true -> is_elem g' x = true). { intros x Hx. apply is_elem_node in Hx as (m & Hm). apply is_elem_node. destruct (Nat.eq_dec x i) as [->|Hxi]; [eauto|]. exists m. exact (f_old _ _ _ F x m Hxi Hm). }
        split; [exists c; split; [now apply Hel|congruence]|]. exists p. split; [now apply Hel|congruence].
      + intros a c Hin. destruct (HDer a c Hin) as [Hin0 Hci]. destruct (r_der _ _ R a c Hin0) as (Huc & p & Ka & Kc & Hp). split; [exact (Hun' c Hci Huc)|]. exists p. split; [exact (f_up _ _ _ F p a Ka)|]. split; [exact (f_up _ _ _ F p c Kc)|exact (Hdn p Hp)].
    - intros c Hc. destruct (t_todo _ _ _ T c (or_intror Hc)) as [X1 X2]. apply Hst; auto. intros ->. contradiction.
    - intros c p Hc Hk. destruct (t_todo _ _ _ T c (or_intror Hc)) as [(m & Hm & _) _]. destruct (f_down _ _ _ F p c Hk) as [K|K]; [congruence| |now left]. destruct (t_par _ _ _ T c p (or_intror Hc) K) as [X|X]; [left; now apply Hdn|].
      destruct (Nat.eq_dec p i) as [->|Hpi]; [now left|]. right. exact (before_tail i l p c Hpi X).
    - intros a c Hin. destruct (HDer a c Hin) as [Hin0 Hci]. destruct (t_der _ _ _ T a c Hin0) as [[K|K] X]; [congruence|]. split; [exact K|]. destruct X as [X|X]; [left; now apply Hdn|]. destruct (Nat.eq_dec a i) as [->|Hai]; [now left|]. right. exact (before_tail i l a c Hai X).
  Qed.
  Lemma fold2 l : forall g KS, RI2 g KS l -> NoDup l -> ok (foldM process_node g l) /\
    forall ws g', foldM process_node g l = (ws, Ok g') -> exists KS', RI2 g' KS' [] /\ (forall i, In i l -> done_at g' i) /\ forall i, done_at g i -> done_at g' i.
  Proof.
    induction l as [|i l IH]; intros g KS R Hnd; cbn [foldM].
    - split; [apply ok_ret|]. intros ws g' H. apply ret_ok in H as [<- _]. exists KS. split; [exact R|]. split; [intros i []|auto].
    - assert (Hi0 : i <> 0%nat). { intros ->. destruct (t_todo _ _ _ R _ (or_introl eq_refl)) as [(n & Hn & Hd) _]. rewrite (v_root _ _ _ _ (proj1 (proj2 (gi_iv _ _ (r_gi _ _ (t_rs _ _ _ R)))))) in Hn. injection Hn as <-. discriminate. }
      destruct (process2 g KS i l R Hnd Hi0) as [P1 P2]. inversion Hnd as [|? ? _ Hnd']; subst. split.
      + apply ok_bind; [exact P1|]. intros ws g1 E. destruct (P2 _ _ E) as (KS1 & R1 & _). apply (IH g1 KS1 R1 Hnd').
      + intros ws g' H. apply bind_ok in H as (w1 & g1 & w2 & E & H & _). destruct (P2 _ _ E) as (KS1 & R1 & D1 & D2).
        destruct (IH g1 KS1 R1 Hnd') as [_ X]. destruct (X _ _ H) as (KS' & R' & X1 & X2). exists KS'. split; [exact R'|].
        split; [intros j [<-|Hj]; [now apply X2|now apply X1]|]. intros j (m & Hm & Hd). apply X2. destruct (Nat.eq_dec j i) as [->|Hj]; [exact D1|]. exists m. split; [now apply D2|exact Hd].
  Qed.

  (** ** The rounds *)
  Lemma start2 w g : initialization ps = (w, Ok g) -> exists KS, RS2 g KS.
  Proof.
    intros H. destruct (st_initialization S _ _ H) as (KS & (Wf & V & E & N) & E0). assert (B := bi_initialization _ _ _ H). assert (L := proj2 (initialization_ok ps) _ _ H).
    assert (Hfirst : forall x n, get_node g x = Some n -> n_done n = true -> x = 0%nat).
    { intros x n Hx Hd. destruct (Nat.eq_dec x 0) as [|Hx0]; [assumption|exfalso]. destruct (v_node _ _ _ _ V _ _ Hx0 Hx) as (_ & HD & _). rewrite (bi_done _ B _ _ Hx Hd) in HD. destruct HD. }
    exists KS. split.
    - split; [split; [exact Wf|split; [exact V|exact E]]|exact (tr_initialization _ _ _ H)|exact (sc_initialization ps _ _ KS H N)|exact E0| | |exact (bi_dv L4 _ B)].
      + intros a b t n Hin Ht Hn. rewrite (bi_top _ B a b t Hin Ht). split; [intros ->; rewrite (v_root _ _ _ _ V) in Hn; injection Hn as <-; reflexivity|exact (Hfirst a n Hn)].
      + intros p c Hk (n & Hn & Hd). destruct (kid_nz g KS p c (conj Wf (conj V E)) Hk). exact (Hfirst c n Hn Hd).
    - intros c n Hc Hd _. left. apply (ln_der _ _ L c n); auto.
    - intros h path Hh. destruct (ln_one _ _ L h path Hh) as (K1 & K2). split; [exact K1|]. destruct (in_dec Nat.eq_dec h []) as [[]|_]. exact K2.
    - intros a c K. destruct (N _ _ K).
  Qed.
  Lemma rounds2 fuel : forall g KS prev, RS2 g KS -> (forall i, In i prev -> done_at g i) -> out_of_fuel (rounds fuel g prev) \/ ok (rounds fuel g prev).
  Proof.
    induction fuel as [|fuel IH]; intros g KS prev R0 Hprev; cbn [rounds]; [left; reflexivity|]. destruct (resolves2 g KS R0) as (g1 & E1 & R & N1 & HLt). rewrite E1, bind_ret_l. assert (W := proj1 (gi_iv _ _ (r_gi _ _ R))). assert (T := round2 g1 KS R HLt).
    destruct (topological_sorted_spec g1 (find_processable g1) W) as (Hnd & _). assert (Hu := fun i => todo_undone g1 i W). unfold todo in *. destruct (topological_sorted g1 (find_processable g1)) as [|x l] eqn:Et; [right; apply ok_ret|].
    assert (Hnp : list_nat_eqb (x :: l) prev = false).
    { unfold list_nat_eqb. destruct (list_eq_dec Nat.eq_dec (x :: l) prev) as [<-|_]; [|reflexivity]. exfalso. destruct (Hu x (or_introl eq_refl)) as (n & Hn & Hd). destruct (Hprev x (or_introl eq_refl)) as (m & Hm & Hd'). rewrite N1 in Hn. congruence. }
    rewrite Hnp. unfold raise_if. rewrite bind_ret_l. destruct (fold2 (x :: l) g1 KS T Hnd) as [F1 F2].
    destruct F1 as (ws & g2 & E). destruct (F2 _ _ E) as (KS2 & R2 & D & _). destruct (IH g2 KS2 (x :: l) (t_rs _ _ _ R2) D) as [O|(ws' & g3 & O)].
    - left. rewrite E. unfold out_of_fuel, bind in *. destruct (rounds fuel g2 (x :: l)) as [w r]. exact O.
    - right. rewrite E. cbn [bind]. rewrite O. eexists; eexists; reflexivity.
  Qed.
  Lemma rounds_done2 fuel : forall g KS prev ws g', RS2 g KS -> rounds fuel g prev = (ws, Ok g') -> exists KS', RS2 g' KS' /\ forall i n, get_node g' i = Some n -> n_done n = true.
  Proof.
    induction fuel as [|fuel IH]; intros g KS prev ws g' R0 H; cbn [rounds] in H; [minv|]. destruct (resolves2 g KS R0) as (g1 & E1 & R & N1 & HLt). rewrite E1, bind_ret_l in H. assert (W := proj1 (gi_iv _ _ (r_gi _ _ R))). assert (T := round2 g1 KS R HLt). assert (St2 := stuck2 g1 KS R HLt).
    destruct (topological_sorted_spec g1 (find_processable g1) W) as (Hnd & _). unfold todo in *. destruct (topological_sorted g1 (find_processable g1)) as [|x l] eqn:Et.
    - apply ret_ok in H as [<- _]. exists KS. split; [exact R|]. now apply St2.
    - apply bind_ok in H as (w1 & u & w2 & _ & H & _). apply bind_ok in H as (w3 & g2 & w4 & E & H & _).
      destruct (fold2 (x :: l) g1 KS T Hnd) as [F1 F2]. destruct (F2 _ _ E) as (KS2 & R2 & _). exact (IH _ _ _ _ _ (t_rs _ _ _ R2) H).
  Qed.
  Theorem accepted_deep : ps <> [] -> (forall e s, Declared ps e -> declared_size e = Some s -> 0 <= s) ->
    (forall sibs f ks vs tv v, Group ps sibs -> In (PaFld f) sibs -> Elab ps sibs (PaFld f) ks vs tv -> In (PrFld v) vs -> exists es, ks = map PaEvc es /\ EvcsOk es (fb_lsb (if_b v)) (fb_msb (if_b v))) ->
    exists fuel ws l, resolve_peripherals fuel ps = (ws, Ok l).
  Proof.
    intros Hne HZ HF. destruct (initialization_ok ps) as [(w0 & g0 & E0) _]. destruct (start2 w0 g0 E0) as (KS & R0).
    destruct (rounds_terminate ps NDC _ g0 KS [] eq_refl (iv_loose ps nobody g0 KS (gi_iv _ _ (r_gi _ _ R0)))) as (fuel & Hfuel).
    destruct (rounds2 fuel g0 KS [] R0) as [K|(w1 & g & E1)]; [intros i []|contradiction|].
    destruct (rounds_done2 fuel g0 KS [] w1 g R0 E1) as (KS' & R & Hdone). assert (G := r_gi _ _ R). assert (I := gi_iv _ _ G). assert (V := proj1 (proj2 I)).
    exists fuel. refine (pass_accepts ps HE HZ g KS' (iv_loose ps nobody g KS' I) (gi_sh _ _ G) _ _ Hdone _ fuel w0 g0 w1 Hne (gi_k0 _ _ G) E0 E1).
    - apply phs_none; [exact (proj1 I)|]. intros h path Hh. destruct (r_ph _ _ R h path Hh) as [(c & Hc & Ho) _]. assert (X : In (h, c, PLACEHOLDER) (out_edges g h)) by (rewrite Ho; now left). apply out_edges_In in X as [X _].
      destruct (w_ph _ (proj2 (proj2 I)) _ _ X) as [(path' & n & _ & Hn & Hd & _)|(_ & path' & x & Hs & _)]; [rewrite (Hdone _ _ Hn) in Hd; discriminate|]. apply is_elem_node in Hc as (n & Hn). apply get_node_slot in Hn. congruence.
    - intros a b K. destruct (r_der _ _ R a b K) as ((n & Hn & Hd) & _). rewrite (Hdone _ _ Hn) in Hd. discriminate.
    - intros i n f v Hn H0 Ht Hp Hv. destruct (has_parent ps g KS' i n I (gi_sh _ _ G) H0 Hn) as [p Kp]. destruct (kid_fam g KS' p i I Kp) as (e & fam & He & HFa & Hin & Hsub).
      assert (Hpd : done_at g p). { apply (gi_pd _ _ G p i Kp). exists n. split; [exact Hn|exact (Hdone _ _ Hn)]. } assert (HG := group_done g KS' p G Hpd). assert (HD := group_declared ps _ HG e He).
      assert (Hev : ~ is_evc e). { intros K. destruct (Fam_level _ _ _ _ _ _ _ i HFa Hin) as (n' & Hn' & Hl). rewrite Hn in Hn'. injection Hn' as <-. destruct (v_node _ _ _ _ V _ _ H0 Hn) as (L1 & _). rewrite Hp in L1. destruct e; try destruct K. rewrite Hp in Hl. discriminate. }
      assert (X : exists vs tv, e = PaFld f /\ Elab ps (KS' p) (PaFld f) (KS' i) vs tv /\ In (PrFld v) vs).
      { destruct HFa as [e c n0 Hn0 Hd _|e c n0 [] _ _|e0 e' c n0 _ _ _ _|e c n0 v0 Hn0 Hd0 Ht0 Hp0 Hv0 HEl|e c n0 js vs tv Hn0 Hd0 Ht0 Hp0 Hv0 HEl F2].
        - rewrite (Hdone _ _ Hn0) in Hd. discriminate.
        - destruct Hev. exact Logic.I.
        - destruct Hin as [<-|[]]. rewrite Hn in Hn0. injection Hn0 as <-. rewrite Hp in Hp0. subst e. rewrite Hv in Hv0. injection Hv0 as <-. exists [PrFld v], None. split; [reflexivity|]. split; [exact HEl|now left].
        - destruct Hin as [<-|Hin]; [rewrite Hn in Hn0; injection Hn0 as <-; congruence|].
          assert (K : exists v0, In v0 vs /\ Inst g KS' e c i v0). { clear - F2 Hin. induction F2 as [|j' v0 js vs HI _ IH]; [destruct Hin|]. destruct Hin as [<-|Hin]; [exists v0; split; [now left|exact HI]|]. destruct (IH Hin) as (v' & K1 & K2). exists v'. split; [now right|exact K2]. }
          destruct K as (v0 & Hvin & nj & Kn & Kd & Kt & Kp' & Kv & KK). rewrite Hn in Kn. injection Kn as <-. rewrite Hp in Kp'. rewrite Hv in Kv. injection Kv as <-. exists vs, (Some tv). split; [congruence|]. rewrite Kp'. split; [rewrite KK; exact HEl|exact Hvin]. }
      destruct X as (vs & tv & -> & HEl & Hvin). exact (HF (KS' p) f (KS' i) vs tv v HG He HEl Hvin).
  Qed.
End Deep.
