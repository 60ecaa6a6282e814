(** * OrderPer: peripherals, derived or not, and the rules for shuffled descriptions (C53). *)
From Verif Require Import Base PyStr PyInt Types DimModel EnumModel ElemModel FinalModel ConvertModel ResolveModel ProcessModel SpecProcess SpecDim SpecElem SpecEnum SpecDevice SpecImage SpecDeclared SpecExpand SpecAccept SpecAgain SpecOrder.
From Verif Require Import TextFacts DimFacts FinalFacts ElemFacts ImageFacts ResolveInv DescribeFacts BuildOk LookupOk AcceptFacts FinalAccept AgainFacts AgainExpand OrderFinal OrderFacts PropsDim PropsElem PropsDevice PropsResolve PropsTerm PropsAccept.
From Coq Require Import ZifyBool ZifyNat ZifyN.

Lemma reordered_app {A B} (R : A -> B -> Prop) l1 l2 k1 k2 : Reordered R l1 k1 -> Reordered R l2 k2 -> Reordered R (l1 ++ l2) (k1 ++ k2).
Proof. intros (m1 & P1 & F1) (m2 & P2 & F2). exists (m1 ++ m2). split; [now apply Permutation_app|now apply Forall2_app]. Qed.
Lemma reordered_from {A B} (R : A -> B -> Prop) l l' y : Reordered R l l' -> In y l' -> exists x, In x l /\ R x y.
Proof. intros (m & P & F) Hy. destruct (Forall2_in_r _ _ _ F _ Hy) as (x & Hx & H). exists x. split; [eapply Permutation_in; [apply Permutation_sym, P|exact Hx]|exact H]. Qed.
Lemma reordered_to {A B} (R : A -> B -> Prop) l l' x : Reordered R l l' -> In x l -> exists y, In y l' /\ R x y.
Proof. intros (m & P & F) Hx. apply (Permutation_in x P) in Hx. exact (Forall2_in_l _ _ _ F _ Hx). Qed.

Lemma sapp_inj a b c : (a ++ b)%string = (a ++ c)%string -> b = c.
Proof. induction a as [|x a IH]; cbn; intros H; [exact H|]. injection H as H. exact (IH H). Qed.

(** ** The value a peripheral takes over *)
Lemma subst_changes ix name r : is_array name -> digit_string ix -> Subst "[%s]" ix name r -> r <> name.
Proof.
  intros (a & b & Ha) [Hne Hd] H. inversion H as [s Hno|x s r' Hno Hs]; subst; [exfalso; exact (Hno a b eq_refl)|]. intros K. apply sapp_inj in K. destruct ix as [|c ix]; [exact (Hne eq_refl)|]. cbn [append] in K. injection K as -> _. discriminate Hd.
Qed.

Lemma zrange_nonneg n : forall k, In k (zrange 0 n) -> 0 <= k.
Proof. intros k Hk. apply zrange_in in Hk. lia. Qed.
Lemma described_whole p b vs tv bv : ~ has_placeholder (sp_name p) \/ is_array (sp_name p) -> Described (PaPer p) b vs tv -> In bv vs \/ tv = Some bv -> processed_name bv = sp_name p ->
  vs = [bv] /\ tv = None \/ tv = Some bv.
Proof.
  intros HA D Hb Hn. inversion D as [v D1 D2 D3 D4 D5 D6 D7|vs0 t n idx ph D1 D2 D3 D4 D5 D6 D7 D8 D9 D10 D11]; subst.
  - destruct Hb as [[<-|[]]|Hb]; [left; auto|discriminate].
  - destruct Hb as [Hb|Hb]; [exfalso|right; exact Hb]. destruct D5 as [(K1 & -> & ->)|(K1 & _ & K2 & _)]; [|destruct HA; contradiction]. cbn [parsed_name] in *.
    apply In_nth_error in Hb as (k & Hk). destruct (D6 k bv Hk) as (ix & I1 & I2 & _). apply (subst_changes ix (sp_name p) (processed_name bv)); auto. apply nth_error_In in I1. apply in_map_iff in I1 as (z & <- & Hz). apply digits_str. exact (zrange_nonneg _ _ Hz).
Qed.
Lemma heads_whole vs tv vs' tv' bv bv' : Forall2 Head vs vs' -> HeadO tv tv' -> vs = [bv] /\ tv = None \/ tv = Some bv -> vs' = [bv'] /\ tv' = None \/ tv' = Some bv' -> HeadO (Some bv) (Some bv').
Proof.
  intros HF HO [[-> ->]| ->] [[-> ->]| ->]; cbn in HO |- *; try contradiction; [|exact HO]. inversion HF; assumption.
Qed.
Lemma elab_described ps sc e ks vs tv : Elab ps sc e ks vs tv -> exists b, Described e b vs tv.
Proof. intros H. inversion H; subst; eauto. Qed.

(** [x] is one of the registers and clusters of [p], its own or taken over from its base *)
Inductive EffChild (ps : list svd_periph) : svd_periph -> svd_rc -> Prop :=
| EC_own p x : In x (sp_rcs p) -> EffChild ps p x
| EC_via p q x : PlainBase ps p q -> EffChild ps q x -> EffChild ps p x.
Section Per.
  Context (ps ps' : list svd_periph) (HR : Reordered ShufPer ps ps') (HP : forall p, In p ps -> PeripheralRules ps p) (HC : ClearBases ps).

  Lemma name_rule p : In p ps -> ~ has_placeholder (sp_name p) \/ is_array (sp_name p).
  Proof. intros H. destruct (HP p H) as [_ [K|[K _]]]; auto. Qed.
  Lemma per_index p b : In p ps -> IndexFine (PaPer p) b.
  Proof. intros H Hp. destruct (name_rule p H) as [K|K]; [contradiction|now left]. Qed.

  Lemma per_elab p : Grounded ps p -> In p ps -> forall p' ks vs tv ks' vs' tv', ShufPer p p' -> In p' ps' -> Elab ps (map PaPer ps) (PaPer p) ks vs tv -> Elab ps' (map PaPer ps') (PaPer p') ks' vs' tv' ->
    Reordered Sh ks ks' /\ Forall2 Head vs vs' /\ HeadO tv tv' /\ forall e, In e ks -> exists x, e = PaRc x /\ EffChild ps p x.
  Proof.
    induction 1 as [p Hd|p q Hb HG IH]; intros Hp p' ks vs tv ks' vs' tv' HS Hp' H H'; assert (HSh := sh_shell _ _ (Sh_per _ _ HS) ltac:(discriminate)); assert (HK := sh_kids _ _ (Sh_per _ _ HS)); destruct (shell_eqs _ _ HSh) as (_ & _ & _ & Ed & _).
    - apply elab_underived in H as [-> D]; [|exact Hd]. apply elab_underived in H' as [-> D']; [|rewrite Ed; exact Hd]. apply (shell_described _ _ _ _ _ HSh) in D'.
      destruct (described_fun _ None None _ _ _ _ Logic.I (per_index p None Hp) D D') as [H1 H2]. split; [exact HK|]. split; [exact H1|]. split; [exact H2|]. cbn [kids_of]. intros e He. apply in_map_iff in He as (x & <- & Hx). exists x. split; [reflexivity|now constructor].
    - assert (Hb' := Hb). destruct Hb' as (path & l1 & l2 & Hd & Hs & _). assert (Hpe : path_end path = path) by (unfold path_end; now rewrite Hs).
      inversion H as [? ? ? ? K|? ? path1 sb eb kb vsb tvb bv ? ? A1 A2 A3 A4 A5 A6 A7 A8]; subst; [cbn in K; congruence|]. inversion H' as [? ? ? ? K|? ? path1' sb' eb' kb' vsb' tvb' bv' ? ? B1 B2 B3 B4 B5 B6 B7 B8]; subst; [cbn in K, Ed; congruence|].
      cbn [derived_of] in A1, B1, Ed. rewrite Hd in A1. injection A1 as <-. rewrite Ed, Hd in B1. injection B1 as <-. destruct (A4 Hs) as [-> A4']. destruct (B4 Hs) as [-> B4']. rewrite Hpe in A7, B7.
      apply in_map_iff in A4' as (r & <- & Hr). apply in_map_iff in B4' as (r' & <- & Hr'). destruct (reordered_from _ _ _ _ HR Hr') as (r0 & Hr0 & HS0). assert (HSh0 := sh_shell _ _ (Sh_per _ _ HS0) ltac:(discriminate)). destruct (shell_eqs _ _ HSh0) as (En0 & _). cbn [parsed_name] in En0.
      assert (Nr : sp_name r = path). { apply (HC p path r Hp Hd Hr). rewrite <- A7. exact (elab_named _ _ _ _ _ _ _ A5 A6). }
      assert (Nr0 : sp_name r0 = path). { apply (HC p path r0 Hp Hd Hr0). assert (K := elab_named _ _ _ _ _ _ _ B5 B6). rewrite B7 in K. unfold MayBeCalled in *. cbn [parsed_name] in *. rewrite En0 in K. exact K. }
      assert (r = q) by exact (base_name _ _ _ _ _ Hb Hd Hr Nr). assert (r0 = q) by exact (base_name _ _ _ _ _ Hb Hd Hr0 Nr0). subst r r0.
      destruct (IH (base_in _ _ _ Hb) r' _ _ _ _ _ _ HS0 Hr' A5 B5) as (I1 & I2 & I3 & I4).
      assert (HB : HeadO (Some bv) (Some bv')).
      { destruct (elab_described _ _ _ _ _ _ A5) as (b & D). destruct (elab_described _ _ _ _ _ _ B5) as (b' & D'). apply (shell_described _ _ _ _ _ HSh0) in D'. assert (HN := name_rule q (base_in _ _ _ Hb)).
        apply (heads_whole _ _ _ _ _ _ I2 I3); [apply (described_whole q b); auto; congruence|apply (described_whole q b'); auto; congruence]. }
      apply (shell_described _ _ _ _ _ HSh) in B8. destruct (described_fun _ _ _ _ _ _ _ HB (per_index p (Some bv) Hp) A8 B8) as [H1 H2].
      split; [now apply reordered_app|]. split; [exact H1|]. split; [exact H2|]. intros e He. apply in_app_iff in He as [He|He].
      + cbn [kids_of] in He. apply in_map_iff in He as (x & <- & Hx). exists x. split; [reflexivity|now constructor].
      + destruct (I4 e He) as (x & -> & Hx). exists x. split; [reflexivity|exact (EC_via ps p q x Hb Hx)].
  Qed.
End Per.

(** ** Below the peripherals *)
Lemma below_deep ps (HE : forall e, Declared ps e -> level_of e <> LPeripheral -> derived_of e = None /\ (level_of e <> LEnum -> DimRules e) /\ (forall f, e = PaFld f -> FieldRules f)) :
  forall x p, In p ps -> DeclaredRc (sp_rcs p) x -> Deep x.
Proof.
  induction x as [r|c l IH] using svd_rc_ind'; intros p Hp Hx; assert (HD : Declared ps (PaRc _)) by (exists p; split; [exact Hp|exact Hx]); destruct (HE _ HD) as (K1 & K2 & _); try discriminate; constructor; try exact K1; try (apply K2; discriminate).
  - intros f Hf. assert (Df : Declared ps (PaFld f)) by (exists p, r; auto). destruct (HE _ Df) as (F1 & F2 & _); [discriminate|]. split; [exact F1|]. split; [apply F2; discriminate|]. intros c Hc. assert (Dc : Declared ps (PaEvc c)) by (exists f; auto). destruct (HE _ Dc) as (C1 & _); [discriminate|exact C1].
  - intros x Hx'. rewrite Forall_forall in IH. apply (IH x Hx' p Hp). clear - Hx Hx'. assert (K : forall l0 y, DeclaredRc l0 y -> y = SClu c l -> DeclaredRc l0 x). { induction 1 as [l0 y Hy|l0 c0 ch y Hy _ IH]; intros ->; [apply (DR_deep _ c l); [exact Hy|now constructor]|]. apply (DR_deep _ c0 ch); auto. } exact (K _ _ Hx eq_refl).
Qed.
Lemma eff_declared ps p x : EffChild ps p x -> In p ps -> exists q, In q ps /\ DeclaredRc (sp_rcs q) x.
Proof. induction 1 as [p x Hx|p q x Hb _ IH]; intros Hp; [exists p; split; [exact Hp|now constructor]|]. apply IH. exact (base_in _ _ _ Hb). Qed.

Lemma sh_top ps ps' : Reordered ShufPer ps ps' -> Reordered (fun e e' => Sh e e' /\ In e' (map PaPer ps')) (map PaPer ps) (map PaPer ps').
Proof.
  intros (m & P & F). exists (map PaPer m). split; [now apply Permutation_map|]. assert (K : forall t m k, Forall2 ShufPer m k -> incl k t -> Forall2 (fun e e' => Sh e e' /\ In e' (map PaPer t)) (map PaPer m) (map PaPer k)).
  { clear. intros t m. induction m as [|a m IH]; intros k F HI; inversion F; subst; cbn [map]; constructor; [split; [now constructor|apply in_map, HI; now left]|]. apply IH; [assumption|]. intros z Hz. apply HI. now right. }
  apply K; [exact F|apply incl_refl].
Qed.
Section PerSame.
  Context (ps ps' : list svd_periph) (HR : Reordered ShufPer ps ps') (HD : DerivedRules ps) (HC : ClearBases ps) (HQ : QuietBases ps) (HQ' : QuietBases ps').
  Lemma per_same p p' os os' : In p ps -> In p' ps' -> ShufPer p p' -> Outs (QuietBases ps) (Elab ps) (EffEvc ps) 32 (map PaPer ps) (PaPer p) os -> Outs (QuietBases ps') (Elab ps') (EffEvc ps') 32 (map PaPer ps') (PaPer p') os' -> Forall2 SameP os os'.
  Proof.
    intros Hp Hp' HS H H'. destruct HD as (Hne & HP & HZ & HE). inversion H as [? ? ? ks vs tv ? HEl HF]; inversion H' as [? ? ? ks' vs' tv' ? HEl' HF']; subst.
    destruct (per_elab ps ps' HR HP HC p (proj1 (HP p Hp)) Hp p' _ _ _ _ _ _ HS Hp' HEl HEl') as (HK & HH & HT & HX). assert (ET : is_some tv' = is_some tv) by (destruct tv, tv'; cbn in HT; tauto).
    destruct (elab_described _ _ _ _ _ _ HEl) as (b & D). eapply forall2_head; [exact HH|exact HF|exact HF'|]. cbn beta. rewrite ET.
    intros v v' o o' Hv Hvv Fv Fv'. assert (HAt := described_attrs _ _ _ _ _ D Hv). destruct v as [x|[x|x xs]|x]; try (cbn in HAt; contradiction). destruct v' as [y|[y|y ys]|y]; try (cbn in Hvv; contradiction). destruct Hvv as (E1 & E2 & E3).
    assert (HDp : forall x, EffChild ps p x -> Deep x) by (intros z Hz; destruct (eff_declared _ _ _ Hz Hp) as (q & Hq & Hz'); exact (below_deep ps HE z q Hq Hz')).
    assert (HKs : forall ctx e e' os os', In e ks -> Sh e e' -> Outs (QuietBases ps) (Elab ps) (EffEvc ps) ctx ks e os -> Outs (QuietBases ps') (Elab ps') (EffEvc ps') ctx ks' e' os' -> Forall2 SameP os os').
    { intros ctx0 e e' os0 os0' He HSe A1 A2. destruct (HX e He) as (z & -> & Hz). inversion HSe as [|z0 z' HSz| |]; subst. exact (rc_same ps ps' HQ HQ' z z' _ _ _ _ _ HSz (HDp z Hz) A1 A2). }
    inversion Fv as [| | | |? ? ? ? oss xs0 s N1 F1 F2 F3 F4|]; subst.
    - assert (N1' : ks' <> []) by (intros ->; apply N1; apply (proj2 (reordered_nil Sh _ _ HK)); reflexivity). inversion Fv' as [| | | |? ? ? ? oss' xs0' s' N2' F1' F2' F3' F4'|]; subst; [|congruence].
      rewrite E2 in F1', F4'. destruct (put_same ps ps' HQ HQ' _ _ _ _ _ _ _ _ _ _ HK (HKs _) F1 F1' F2 F2' F4 F4') as [HO ->].
      cbn [SameP]. unfold SamePer. cbn [ip_b ip_props ip_rcs]. rewrite E1, E2. auto.
    - assert (ks' = []) as -> by (apply (proj1 (reordered_nil Sh _ _ HK)); reflexivity). inversion Fv'; subst; [congruence|]. cbn [SameP]. unfold SamePer. cbn [ip_b ip_props ip_rcs]. rewrite E1, E2. split; [reflexivity|]. split; [reflexivity|]. exists []. split; constructor.
  Qed.

  Theorem expansion_same l l' : Expansion ps l -> Expansion ps' l' -> Reordered SamePer l l'.
  Proof.
    intros (oss & H1 & H2 & _) (oss' & H1' & H2' & _). apply (reordered_out PrPer SamePer (concat oss) (concat oss')); auto.
    assert (HRI := sh_top _ _ HR).
    eapply (kids_same (fun e e' => Sh e e' /\ In e' (map PaPer ps'))); [exact HRI|exact H1|exact H1'|]. intros e e' os os' He [HSe He'] A1 A2. apply in_map_iff in He as (p & <- & Hp). apply in_map_iff in He' as (p' & <- & Hp'). inversion HSe; subst. eapply per_same; eassumption.
  Qed.
End PerSame.

(** ** The rules hold in any order *)
Lemma shuf_declared l : forall l' x', Reordered ShufRc l l' -> DeclaredRc l' x' -> exists x, DeclaredRc l x /\ ShufRc x x'.
Proof.
  intros l' x' HR H. revert l HR. induction H as [l' x' Hx|l' c ch x' Hx _ IH]; intros l HR; destruct (reordered_from _ _ _ _ HR Hx) as (y & Hy & HS).
  - exists y. split; [now constructor|exact HS].
  - inversion HS as [|? k m ? HP HF]; subst. destruct (IH k) as (x & Hx' & HSx); [exists m; auto|]. exists x. split; [exact (DR_deep _ c k _ Hy Hx')|exact HSx].
Qed.
Section Rules.
  Context (ps ps' : list svd_periph) (HR : Reordered ShufPer ps ps').
  Lemma shuf_in p' : In p' ps' -> exists p, In p ps /\ ShufPer p p'.
  Proof. exact (reordered_from _ _ _ p' HR). Qed.
  Lemma shuf_rc x' : Declared ps' (PaRc x') -> exists x, Declared ps (PaRc x) /\ ShufRc x x'.
  Proof.
    intros (p' & Hp' & Hx'). destruct (shuf_in p' Hp') as (p & Hp & (l & HS & ->)). cbn [set_rcs sp_rcs] in Hx'. destruct (shuf_declared _ _ _ HS Hx') as (x & Hx & HSx). exists x. split; [exists p; auto|exact HSx].
  Qed.
  Lemma shuf_field f' : Declared ps' (PaFld f') -> exists f, Declared ps (PaFld f) /\ ShufField f f'.
  Proof.
    intros (p' & r' & Hp' & Hr' & Hf'). destruct (shuf_rc (SReg r') (ex_intro _ p' (conj Hp' Hr'))) as (x & (p & Hp & Hx) & HS). inversion HS as [r ? (l & HF & E)|]; subst. cbn [set_fields sr_fields] in Hf'. destruct (reordered_from _ _ _ _ HF Hf') as (f & Hf & HSf). exists f. split; [exists p, r; auto|exact HSf].
  Qed.
  Lemma shuf_any e' : Declared ps' e' -> exists e, Declared ps e /\ Sh e e'.
  Proof.
    destruct e' as [|p'|x'|f'|c']; cbn [Declared]; intros H; [destruct H| | | |].
    - destruct (shuf_in p' H) as (p & Hp & HS). exists (PaPer p). split; [exact Hp|now constructor].
    - destruct (shuf_rc x' H) as (x & Hx & HS). exists (PaRc x). split; [exact Hx|now constructor].
    - destruct (shuf_field f' H) as (f & Hf & HS). exists (PaFld f). split; [exact Hf|now constructor].
    - destruct H as (f' & Hf' & Hc). destruct (shuf_field f' Hf') as (f & Hf & (l & HP & ->)). exists (PaEvc c'). split; [|constructor]. exists f. split; [exact Hf|]. eapply Permutation_in; [apply Permutation_sym, HP|exact Hc].
  Qed.
  Lemma shuf_base p p' q : PlainBase ps p q -> ShufPer p p' -> exists q', PlainBase ps' p' q' /\ ShufPer q q'.
  Proof.
    intros (path & l1 & l2 & Hd & Hs & E & Hn & Hu) (l & _ & ->). destruct HR as (m & P & F). rewrite E in P. assert (Hq : In q m) by (eapply Permutation_in; [exact P|apply in_elt]). apply in_split in Hq as (m1 & m2 & ->). apply Permutation_app_inv in P.
    apply Forall2_app_inv_l in F as (k1 & k2' & F1 & F2 & Ek). inversion F2 as [|? q' ? k2 HSq F3]; subst. exists q'. split; [|exact HSq]. assert (HSh := HSq). destruct HSh as (lq & _ & ->). exists (sp_name q), k1, k2. cbn [set_rcs sp_derived sp_name].
    split; [exact Hd|]. split; [exact Hs|]. split; [reflexivity|]. split; [reflexivity|]. intros r' Hr'. assert (K : exists r, In r (m1 ++ m2) /\ ShufPer r r') by (apply in_app_iff in Hr' as [Hr'|Hr']; [destruct (Forall2_in_r _ _ _ F1 _ Hr') as (r & X1 & X2)|destruct (Forall2_in_r _ _ _ F3 _ Hr') as (r & X1 & X2)]; exists r; (split; [apply in_app_iff; auto|exact X2])).
    destruct K as (r & Hr & (lr & _ & ->)). cbn [set_rcs sp_name]. apply Hu. eapply Permutation_in; [apply Permutation_sym, P|exact Hr].
  Qed.
  Lemma shuf_grounded p : Grounded ps p -> forall p', ShufPer p p' -> Grounded ps' p'.
  Proof.
    induction 1 as [p Hd|p q Hb _ IH]; intros p' HS; [destruct HS as (l & _ & ->); apply Gr_own; exact Hd|]. destruct (shuf_base p p' q Hb HS) as (q' & Hb' & HSq). exact (Gr_via ps' p' q' Hb' (IH q' HSq)).
  Qed.
  Lemma shuf_dim p n : DimVia ps p n -> forall p', ShufPer p p' -> DimVia ps' p' n.
  Proof.
    induction 1 as [p n Hd|p q n Hd Hb _ IH]; intros p' HS; [destruct HS as (l & _ & ->); apply DV_own; exact Hd|]. destruct (shuf_base p p' q Hb HS) as (q' & Hb' & HSq). apply (DV_via ps' p' q' n); [destruct HS as (l & _ & ->); exact Hd|exact Hb'|exact (IH q' HSq)].
  Qed.
  Lemma usage_rules_perm cs cs' : Permutation cs cs' -> UsageRules cs -> UsageRules cs'.
  Proof.
    intros P [H|H]; [left; now rewrite <- (Permutation_length P)|]. right. apply (Permutation_map sevc_usage) in P. destruct H as [H|H]; rewrite H in P; apply Permutation_length_2_inv in P as [-> | ->]; auto.
  Qed.
  Lemma field_rules_shuf f f' : ShufField f f' -> FieldRules f -> FieldRules f'.
  Proof.
    intros (l & P & ->) (m & lo & HB & HU & HK). exists m, lo. split; [|split; [exact (usage_rules_perm _ _ P HU)|]].
    - apply (bits_set _ (sf_evcs f)). destruct f. exact HB.
    - intros c Hc. apply HK. eapply Permutation_in; [apply Permutation_sym, P|exact Hc].
  Qed.
  Lemma dim_rules_shell e e' : Shell e e' -> DimRules e -> DimRules e'.
  Proof. intros HS. destruct (shell_eqs _ _ HS) as (E1 & E2 & E3 & E4 & E5 & _). unfold DimRules. rewrite E1, E2, E3, E5. auto. Qed.
  Theorem rules_shuffled : DerivedRules ps -> DerivedRules ps'.
  Proof.
    intros (Hne & HP & HZ & HE). split; [|split; [|split]].
    - intros ->. apply Hne. apply (proj2 (reordered_nil _ _ _ HR)). reflexivity.
    - intros p' Hp'. destruct (shuf_in p' Hp') as (p & Hp & HS). destruct (HP p Hp) as [K1 K2]. split; [exact (shuf_grounded p K1 p' HS)|]. assert (En : sp_name p' = sp_name p) by (destruct HS as (l & _ & ->); reflexivity). rewrite En. destruct K2 as [K2|(K2 & n & K3 & K4)]; [now left|right]. split; [exact K2|]. exists n. split; [exact (shuf_dim p n K3 p' HS)|exact K4].
    - intros e' s He' Hs. destruct (shuf_any e' He') as (e & He & HS). destruct (level_of e) eqn:El; try (apply (HZ e s He); rewrite <- Hs; symmetry; apply (shell_eqs e e'); apply sh_shell; [exact HS|rewrite El; discriminate]). inversion HS; subst; cbn in El, Hs; try discriminate; destruct x as [?|? ?]; discriminate.
    - intros e' He' Hl'. destruct (shuf_any e' He') as (e & He & HS). assert (Hc : level_of e = LEnum -> e' = e) by (intros El; inversion HS; subst; try reflexivity; try (cbn in El; discriminate); destruct x as [?|? ?]; discriminate).
      assert (HL : level_of e' = level_of e) by (destruct (level_of e) eqn:El; try (rewrite <- El; apply (shell_eqs e e'); apply sh_shell; [exact HS|rewrite El; discriminate]); rewrite (Hc eq_refl); exact El). rewrite HL in *. destruct (HE e He Hl') as (K1 & K2 & K3).
      destruct (level_of e) eqn:El; try (assert (HSh : Shell e e') by (apply sh_shell; [exact HS|rewrite El; discriminate]); split; [rewrite (proj1 (proj2 (proj2 (proj2 (shell_eqs _ _ HSh))))); exact K1|]; split; [intros Hx; exact (dim_rules_shell _ _ HSh (K2 Hx))|]; intros f' ->; inversion HS; subst; eapply field_rules_shuf; [eassumption|now apply K3]).
      rewrite (Hc eq_refl). auto.
  Qed.
End Rules.
