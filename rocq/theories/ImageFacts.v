(** * ImageFacts: finalization after inheritance produces the image of SpecImage. *)
From Verif Require Import Base PyStr PyInt Types FinalModel SpecDevice SpecImage SpecElem FinalFacts ElemFacts.
From Coq Require Import ZifyBool ZifyNat ZifyN.

Lemma is_reserved_spec n : is_reserved n = true <-> lower n = "reserved".
Proof. unfold is_reserved. apply String.eqb_eq. Qed.
Lemma not_reserved_spec n : is_reserved n = false <-> lower n <> "reserved".
Proof. unfold is_reserved. apply String.eqb_neq. Qed.

Section Img.
  Variable ws : list warning.

  Lemma ev_align l lsb msb : forall w r, fin_enum_values l lsb msb = (w, Ok r) -> incl w ws -> EvAlign ws (msb - lsb + 1) l r.
  Proof.
    induction l as [|v l IH]; intros w r H Hi; cbn [fin_enum_values] in H.
    - apply ret_ok in H as [<- _]. constructor.
    - destruct (iev_value v) as [z|] eqn:Ev; [|minv].
      destruct ((z <? 0) || (2 ^ (msb - lsb + 1) - 1 <? z)) eqn:E.
      + apply bind_ok in H as (w1 & [] & w2 & H1 & H & ->). apply warn_ok in H1. subst w1. eapply EvA_drop; eauto.
        * unfold ev_fits. lia.
        * apply Hi. now left.
        * eapply IH; eauto. intros y Hy. apply Hi. now right.
      + apply bind_ok in H as (w1 & r' & w2 & H1 & H & ->). apply ret_ok in H as [<- ->]. apply EvA_keep; auto.
        * unfold ev_fits. lia.
        * eapply IH; eauto. intros y Hy. apply Hi, in_or_app. now left.
  Qed.
  Lemma evcs_align l lsb msb w r : fin_enum_containers l lsb msb = (w, Ok r) -> incl w ws ->
    exists cs, Permutation cs r /\ Forall2 (EvcImage ws (msb - lsb + 1)) l cs.
  Proof.
    intros H Hi. unfold fin_enum_containers in H. apply bind_ok in H as (w1 & cs & w2 & H1 & H & ->). apply ret_ok in H as [<- ->].
    rewrite app_nil_r in Hi. exists cs. split; [apply isort_perm|]. revert w1 cs H1 Hi.
    induction l as [|c l IH]; intros w1 cs H1 Hi; cbn [mapM] in H1.
    - apply ret_ok in H1 as [<- _]. constructor.
    - apply bind_ok in H1 as (w3 & y & w4 & H3 & H1 & ->). apply bind_ok in H1 as (w5 & ys & w6 & H5 & H1 & ->). apply ret_ok in H1 as [<- ->].
      apply bind_ok in H3 as (w7 & vs & w8 & H7 & H3 & ->). apply ret_ok in H3 as [<- ->]. rewrite !app_nil_r in Hi.
      constructor.
      + repeat split; auto. cbn. eapply ev_align; eauto. intros z Hz. apply Hi, in_or_app. now left.
      + eapply IH; eauto. intros z Hz. apply Hi, in_or_app. now right.
  Qed.

  Lemma nearest_cons {A} (o : option A) l : nearest (o :: l) = or_if_none o (nearest l).
  Proof. destruct o; reflexivity. Qed.

  (** [acc] inherited = nearest of the chain *)
  Lemma fields_align accs rwc acc l ys w : acc = nearest accs ->
    FLoop (map (inherit_field acc rwc) l) ys w -> incl w ws -> FieldsAlign ws accs rwc l ys.
  Proof.
    intros Hacc HL. remember (map (inherit_field acc rwc) l) as m eqn:Em. revert l Em.
    induction HL as [|x m y ys evcs w w' Hr He Hf HL IH|x m ys w Hr HL IH]; intros l Em Hi.
    - destruct l; [constructor|discriminate].
    - destruct l as [|f l]; [discriminate|]. cbn [map] in Em. injection Em as -> ->.
      cbn [inherit_field if_b fb_name fb_lsb fb_msb if_evcs] in *. apply FA_keep.
      + apply field_from_ok in Hf as (a & Ha & _ & ->). cbn [inherit_field if_access] in Ha. unfold inherit_field in *.
        apply evcs_align in He; [|intros z Hz; apply Hi, in_or_app; now left].
        constructor; cbn; auto.
        * now destruct (fb_wc (if_b f)), rwc.
        * rewrite <- Ha, Hacc. now destruct (if_access f).
      + now apply not_reserved_spec.
      + apply IH; auto. intros z Hz. apply Hi, in_or_app. now right.
    - destruct l as [|f l]; [discriminate|]. cbn [map] in Em. injection Em as -> ->. apply FA_drop.
      + now apply is_reserved_spec.
      + apply Hi. now left.
      + apply IH; auto. intros z Hz. apply Hi. now right.
  Qed.

  (** [up]: the already inherited properties of the parent *)
  Definition up_is (chain : list oprops) (up : oprops) : Prop :=
    op_size up = nearest (map op_size chain) /\ op_access up = nearest (map op_access chain) /\ op_prot up = nearest (map op_prot chain) /\
    op_rv up = nearest (map op_rv chain) /\ op_rm up = nearest (map op_rm chain).
  Lemma up_inherit chain up own : up_is chain up -> up_is (own :: chain) (inherit_oprops own up).
  Proof.
    intros (H1 & H2 & H3 & H4 & H5). unfold up_is, inherit_oprops; cbn [op_size op_access op_prot op_rv op_rm map].
    rewrite !nearest_cons, H1, H2, H3, H4, H5. auto.
  Qed.
  Lemma up_nearest_props chain up p : up_is chain up -> up = oprops_of_props p -> nearest_props chain p.
  Proof. intros (H1 & H2 & H3 & H4 & H5) ->. cbn in *. unfold nearest_props. rewrite <- H1, <- H2, <- H3, <- H4, <- H5. auto. Qed.

  Lemma loop_align chain up base l : up_is chain up ->
    (forall x, In x l -> forall w o, fin_rc (inherit_rc up x) base = (w, Ok o) -> incl w ws ->
       match o with Some y => Image ws chain x y | None => Omitted ws chain x end) ->
    forall ys w, Loop (fun y => fin_rc y base) (map (inherit_rc up) l) ys w -> incl w ws -> Align ws chain l ys.
  Proof.
    intros Hup Hx ys w HL. remember (map (inherit_rc up) l) as m eqn:Em. revert l Em Hx.
    induction HL as [|x m y ys w w' Hf HL IH|x m ys w w' Hf HL IH]; intros l Em Hx Hi.
    - destruct l; [constructor|discriminate].
    - destruct l as [|z l]; [discriminate|]. cbn [map] in Em. injection Em as -> ->. apply Al_keep.
      + apply (Hx z (or_introl eq_refl) _ _ Hf). intros t Ht. apply Hi, in_or_app. now left.
      + apply IH; auto. { intros t Ht. apply Hx. now right. } intros t Ht. apply Hi, in_or_app. now right.
    - destruct l as [|z l]; [discriminate|]. cbn [map] in Em. injection Em as -> ->. apply Al_drop.
      + apply (Hx z (or_introl eq_refl) _ _ Hf). intros t Ht. apply Hi, in_or_app. now left.
      + apply IH; auto. { intros t Ht. apply Hx. now right. } intros t Ht. apply Hi, in_or_app. now right.
  Qed.

  Lemma fin_rc_image x : forall chain up base w o, up_is chain up -> fin_rc (inherit_rc up x) base = (w, Ok o) -> incl w ws ->
    match o with Some y => Image ws chain x y | None => Omitted ws chain x end.
  Proof.
    induction x as [r|c l IH] using irc_ind'; intros chain up base w o Hup H Hi.
    - assert (Hup' := up_inherit _ _ (ir_props r) Hup). cbn [inherit_rc] in H.
      apply fin_rc_ok in H as (s & Hs & [(H8 & -> & ->)|(Hms & w' & -> & H)]).
      + eapply Om_size; [|exact H8|apply Hi; now left]. cbn [i_props]. rewrite <- (proj1 Hup'). exact Hs.
      + cbn [ir_b ir_fields ir_props] in H.
        destruct H as [(Hr & -> & ->)|(Hr & Halt & fs & p & Hf & Hp & Hps & ->)].
        * apply Om_reserved; [now apply is_reserved_spec|]. apply Hi, in_or_app. right. now left.
        * apply fin_fields_ok in Hf as (ys & w1 & w2 & HL & Hn & -> & Hc & ->).
          apply (Im_reg ws chain r _ ys); cbn [r_b r_props r_fields]; [reflexivity| | | |].
          -- now apply not_reserved_spec.
          -- eapply up_nearest_props; eauto.
          -- eapply fields_align; [|exact HL|]; [exact (proj1 (proj2 Hup'))|]. intros z Hz. apply Hi, in_or_app. right. apply in_or_app. now left.
          -- apply (isort_listed f_lsb).
    - assert (Hup' := up_inherit _ _ (ic_props c) Hup). cbn [inherit_rc] in H.
      apply fin_rc_ok in H as (s & Hs & [(H8 & -> & ->)|(Hms & w' & -> & H)]).
      + eapply Om_size; [|exact H8|apply Hi; now left]. cbn [i_props]. rewrite <- (proj1 Hup'). exact Hs.
      + cbn [ic_b ic_props] in H. destruct H as (ch & w1 & Hch & H).
        apply fin_rcs_ok in Hch as (ys & w2 & w3 & HL & Hn & -> & Hc & ->).
        assert (HA : Align ws (ic_props c :: chain) l ys).
        { eapply loop_align; [exact Hup'| |exact HL|].
          - intros x Hx w0 o0 H0 Hi0. rewrite Forall_forall in IH. eapply (IH x Hx); eauto.
          - intros z Hz. apply Hi, in_or_app. right.
            destruct H as [(_ & _ & ->)|(_ & -> & _)]; [apply in_or_app; left|]; apply in_or_app; now left. }
        destruct H as [(He & -> & ->)|(Hne & -> & p & Hp & Hps & H)].
        * apply isort_nil in He. subst ys. apply Om_empty; [exact HA|]. apply Hi, in_or_app. right. apply in_or_app. right. now left.
        * cbn zeta in H. subst o. eapply Im_clu; cbn [c_b c_props]; eauto; [eapply up_nearest_props; eauto|apply isort_perm].
  Qed.

  Lemma fin_per_image dev p w o : fin_per (inherit_per dev p) = (w, Ok o) -> incl w ws ->
    match o with Some q => PerImage ws dev p q | None => PerOmitted ws dev p end.
  Proof.
    intros H Hi. apply fin_per_ok in H as (rcs & w1 & w2 & Hr & -> & H). cbn [inherit_per ip_b ip_rcs ip_props] in *.
    assert (Hup0 : up_is [dev] dev).
    { unfold up_is. cbn [map]. rewrite !nearest_cons. cbn [nearest]. destruct dev as [[] [] [] [] []]; auto. }
    assert (Hup := up_inherit _ _ (ip_props p) Hup0).
    apply fin_rcs_ok in Hr as (ys & w3 & w4 & HL & Hn & -> & Hc & ->).
    assert (HA : Align ws [ip_props p; dev] (ip_rcs p) ys).
    { eapply loop_align; [exact Hup| |exact HL|].
      - intros x Hx w0 o0 H0 Hi0. eapply fin_rc_image; eauto.
      - intros z Hz. apply Hi, in_or_app. left. apply in_or_app. now left. }
    destruct H as [(He & -> & ->)|(Hne & [(s & Hs & H8 & -> & Hw)|(pp & Hp & H8 & Hab & H)])].
    - apply isort_nil in He. subst ys. apply PO_empty; [exact HA|]. apply Hi, in_or_app. right. now left.
    - eapply PO_size; [|exact H8|apply Hi, in_or_app; now right]. rewrite <- Hs. cbn. now destruct (op_size (ip_props p)), (op_size dev).
    - cbn zeta in H. subst o. eapply PI; cbn [pr_b pr_props pr_rcs]; eauto; [eapply up_nearest_props; eauto|apply isort_perm].
  Qed.
End Img.

Lemma finalize_image d ws dev : finalize (inherit_properties d) = (ws, Ok dev) -> DevImage ws d dev.
Proof.
  intros H. unfold finalize in H. apply bind_ok in H as (w1 & ps & w2 & H1 & H & ->). apply ret_ok in H as [<- ->].
  apply fin_pers_ok in H1 as (ys & w3 & w4 & HL & Hn & -> & Hc & ->). cbn [inherit_properties idv_b idv_periphs] in *.
  split; [reflexivity|]. exists ys. cbn [dv_periphs]. split; [|apply isort_perm]. rewrite app_nil_r.
  change (dev_oprops (idv_b d)) with (oprops_of_props (db_props (idv_b d))).
  assert (Hi : incl w3 (w3 ++ w4)) by (apply incl_appl, incl_refl). revert HL Hi. clear.
  generalize (w3 ++ w4) as W. intros W HL. remember (map _ (idv_periphs d)) as m eqn:Em. revert Em. generalize (idv_periphs d) as l.
  induction HL as [|x m y ys w w' Hf HL IH|x m ys w w' Hf HL IH]; intros l Em Hi.
  - destruct l; [constructor|discriminate].
  - destruct l as [|z l]; [discriminate|]. cbn [map] in Em. injection Em as -> ->. apply PA_keep.
    + apply (fin_per_image W _ _ _ _ Hf). intros t Ht. apply Hi, in_or_app. now left.
    + apply IH; auto. intros t Ht. apply Hi, in_or_app. now right.
  - destruct l as [|z l]; [discriminate|]. cbn [map] in Em. injection Em as -> ->. apply PA_drop.
    + apply (fin_per_image W _ _ _ _ Hf). intros t Ht. apply Hi, in_or_app. now left.
    + apply IH; auto. intros t Ht. apply Hi, in_or_app. now right.
Qed.

Lemma Align_in ws chain l ys : Align ws chain l ys -> forall y, In y ys -> exists x, In x l /\ Image ws chain x y.
Proof.
  intros H. revert ys H. induction l as [|z l IH]; intros ys H y Hy; inversion H; subst.
  - destruct Hy.
  - destruct Hy as [<-|Hy]; [exists z; simpl; auto|]. edestruct IH as (x & ? & ?); eauto. exists x; simpl; auto.
  - edestruct IH as (x & ? & ?); eauto. exists x; simpl; auto.
Qed.

Lemma image_name ws chain x y : Image ws chain x y -> i_name x = el_name y.
Proof. intros HI. inversion HI as [? r q gs Hb|? c l' d ch' ys' Hb]; subst; cbn; now rewrite Hb. Qed.
Lemma image_props ws chain x y : Image ws chain x y -> nearest_props (i_props x :: chain) (el_props y).
Proof. intros HI. inversion HI; subst; assumption. Qed.
Lemma image_path ws chain l ys ch path y : Align ws chain l ys -> Permutation ys ch -> PBelow ch path y ->
  exists encl x, IBelow l path (i_props x :: encl) x /\ Image ws (encl ++ chain) x y.
Proof.
  intros HA Hp HB. revert chain l ys HA Hp. induction HB as [ch y Hin|ch c ch' path y Hin HB IH]; intros chain l ys HA Hp.
  - destruct (Align_in _ _ _ _ HA y) as (x & Hx & HI). { eapply Permutation_in; [symmetry; exact Hp|exact Hin]. }
    exists [], x. rewrite <- (image_name _ _ _ _ HI). split; [now constructor|exact HI].
  - destruct (Align_in _ _ _ _ HA (Clu c ch')) as (x & Hx & HI). { eapply Permutation_in; [symmetry; exact Hp|exact Hin]. }
    inversion HI as [|? ic l' d ch'' ys' Hb Hnp HA' Hp']; subst.
    destruct (IH _ _ _ HA' Hp') as (own & x & HIB & HI').
    exists (own ++ [ic_props ic]), x. rewrite Hb. split; [change (i_props x :: own ++ [ic_props ic]) with ((i_props x :: own) ++ [ic_props ic]); eapply IB_deep; eauto|].
    now rewrite <- app_assoc.
Qed.
Lemma PersAlign_in ws dev l ys : PersAlign ws dev l ys -> forall q, In q ys -> exists p, In p l /\ PerImage ws dev p q.
Proof.
  induction 1 as [|p q l r HI HA IH|p l r HO HA IH]; intros q' Hq.
  - destruct Hq.
  - destruct Hq as [<-|Hq]; [exists p; simpl; auto|]. destruct (IH _ Hq) as (p' & ? & ?). exists p'; simpl; auto.
  - destruct (IH _ Hq) as (p' & ? & ?). exists p'; simpl; auto.
Qed.
Lemma FieldsAlign_in ws accs rwc l gs : FieldsAlign ws accs rwc l gs -> forall g, In g gs -> exists f, In f l /\ FieldImage ws accs rwc f g.
Proof.
  induction 1 as [|f g l r HI Hn HA IH|f l r Hn Hw HA IH]; intros g' Hg.
  - destruct Hg.
  - destruct Hg as [<-|Hg]; [exists f; simpl; auto|]. destruct (IH _ Hg) as (f' & ? & ?). exists f'; simpl; auto.
  - destruct (IH _ Hg) as (f' & ? & ?). exists f'; simpl; auto.
Qed.
