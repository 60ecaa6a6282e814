(** * FinalAccept: when the finalisation succeeds (for C50). *)
From Verif Require Import Base PyStr PyInt Types DimModel ElemModel FinalModel ResolveModel ProcessModel SpecProcess SpecDim SpecElem SpecEnum SpecDevice SpecDeclared SpecExpand SpecImage SpecAccept.
From Verif Require Import FinalFacts AltFacts OverlapFacts ImageFacts FinalErr FuelFacts BuildOk AcceptFacts PropsDevice PropsCheck.

Lemma not_ok_err {A} (m : M A) : ~ ok m <-> exists ws e, m = (ws, Err e).
Proof.
  split.
  - intros H. destruct m as [ws [a|e]]; [|eauto]. destruct H. exists ws, a. reflexivity.
  - intros (ws & e & ->) (ws' & a & H). discriminate.
Qed.
Lemma ok_dec {A} (m : M A) : ok m \/ ~ ok m.
Proof. destruct m as [ws [a|e]]; [left; exists ws, a; reflexivity|right]. intros (? & ? & H). discriminate. Qed.
Lemma ok_bind_inv {A B} (m : M A) (f : A -> M B) : ok (bind m f) -> exists ws a, m = (ws, Ok a) /\ ok (f a).
Proof. intros (ws & b & H). apply bind_ok in H as (w1 & a & w2 & H1 & H2 & _). exists w1, a. split; [exact H1|]. exists w2, b. exact H2. Qed.

(** ** Fields *)
Lemma unreserved_inherit acc wc l : unreserved (map (inherit_field acc wc) l) = map (inherit_field acc wc) (filter (fun f => negb (reserved_name (ifield_name f))) l).
Proof. induction l as [|f l IH]; [reflexivity|]. cbn [map unreserved filter]. unfold unreserved in IH. cbn [if_b inherit_field fb_name]. unfold reserved_name at 1, ifield_name at 1. destruct (negb _); cbn [map]; now rewrite IH. Qed.
Lemma FLoop_valued l ys ws : FLoop l ys ws -> map f_name ys = map (fun f => fb_name (if_b f)) (unreserved l) /\ forall f, In f (unreserved l) -> if_access f <> None /\ valued f.
Proof.
  induction 1 as [|x l y ys evcs w ws Hr Hc Hf HL [IH1 IH2]|x l ys ws Hr HL IH]; [cbn; split; [reflexivity|tauto]| |].
  - unfold unreserved. cbn [filter]. unfold is_reserved in Hr. rewrite Hr. cbn [negb map]. destruct (field_from_ok _ _ _ _ Hf) as (a & Ea & _ & ->). split; [cbn; f_equal; exact IH1|].
    intros f [<-|Hin]; [|apply IH2, Hin]. split; [now rewrite Ea|]. intros c v Hc' Hv. unfold fin_enum_containers in Hc. apply bind_ok in Hc as (w1 & r & w2 & Hc & _).
    assert (X : forall l0 w r, mapM (fun c => vs <- fin_enum_values (ievc_evs c) (fb_lsb (if_b x)) (fb_msb (if_b x)) ;; ret (mk_evc (ievc_name c) (ievc_header c) (ievc_usage c) vs)) l0 = (w, Ok r) -> In c l0 -> ok (fin_enum_values (ievc_evs c) (fb_lsb (if_b x)) (fb_msb (if_b x)))).
    { clear. induction l0 as [|c0 l0 IH]; intros w r H [].
      - subst. cbn in H. apply bind_ok in H as (? & ? & ? & H & _). apply bind_ok in H as (? & ? & ? & H & _). eexists; eexists; exact H.
      - cbn in H. apply bind_ok in H as (? & ? & ? & _ & H & _). apply bind_ok in H as (? & ? & ? & H & _). eapply IH; eauto. }
    specialize (X _ _ _ Hc Hc'). clear - X Hv. revert X Hv. induction (ievc_evs c) as [|v0 l0 IH]; [intros _ []|]. cbn [fin_enum_values]. intros X [<-|Hv]; destruct (iev_value v0); try discriminate.
    + destruct X as (? & ? & X). discriminate.
    + destruct ((z <? 0) || _); [apply ok_bind_inv in X as (? & ? & _ & X); auto|apply ok_bind_inv in X as (? & ? & X & _); apply IH; [eexists; eexists; exact X|exact Hv]].
    + destruct X as (? & ? & X). discriminate.
  - unfold unreserved. cbn [filter]. unfold is_reserved in Hr. rewrite Hr. cbn [negb]. exact IH.
Qed.
Lemma fields_fine accs a wc l size : nearest accs = Some a -> ok (fin_fields (map (inherit_field (Some a) wc) l) size) <-> FieldsFine accs l.
Proof.
  intros Ha. set (h := inherit_field (Some a) wc). set (kept := filter (fun f => negb (reserved_name (ifield_name f))) l).
  assert (EU : unreserved (map h l) = map h kept) by apply unreserved_inherit.
  assert (EN : map (fun f => fb_name (if_b f)) (map h kept) = map ifield_name kept) by (rewrite map_map; reflexivity).
  assert (EA : forall f, exists b, if_access (h f) = Some b /\ nearest (if_access f :: accs) = Some b).
  { intros f. cbn. destruct (if_access f) as [b|]; [exists b|exists a]; auto. }
  assert (EC : forall f g, iclash (h f) (h g) <-> Clash accs f g).
  { intros f g. destruct (EA f) as (b1 & E1 & N1), (EA g) as (b2 & E2 & N2). unfold iclash, Clash, ireadable, iwritable. rewrite E1, E2. cbn [h inherit_field if_b fb_lsb fb_msb]. split.
    - intros [HX HY]. split; [tauto|]. exists b1, b2. split; [exact N1|]. split; [exact N2|]. unfold readable, writable. destruct HX as [[X1 X2]|[X1 X2]]; [left|right]; split; congruence.
    - intros [HX (c1 & c2 & M1 & M2 & HY)]. rewrite N1 in M1. rewrite N2 in M2. injection M1 as <-. injection M2 as <-. split; [|tauto]. unfold readable, writable in HY. destruct HY as [[X1 X2]|[X1 X2]]; [left|right]; split; congruence. }
  assert (EF : ForallOrdPairs (fun f g => ~ iclash f g) (map h kept) <-> ForallOrdPairs (fun f g => ~ Clash accs f g) kept).
  { rewrite fop_map. split; apply fop_iff2 with (P := eq); try (clear; induction kept; constructor; auto); intros ? ? ? ? <- <-; now rewrite EC. }
  assert (EV : (forall f, In f (map h kept) -> if_access f <> None /\ valued f) <-> (forall f c v, In f kept -> In c (if_evcs f) -> In v (ievc_evs c) -> iev_value v <> None)).
  { split.
    - intros H f c v Hf Hc Hv. destruct (H (h f) (in_map _ _ _ Hf)) as [_ X]. exact (X c v Hc Hv).
    - intros H f Hf. apply in_map_iff in Hf as (f0 & <- & Hf). split; [destruct (EA f0) as (b & -> & _); discriminate|]. intros c v Hc Hv. exact (H f0 c v Hf Hc Hv). }
  unfold FieldsFine. fold kept. split.
  - intros (ws & fs & H). destruct (fin_fields_ok _ _ _ _ H) as (ys & w1 & w2 & HL & Hn & _). destruct (FLoop_valued _ _ _ HL) as [K1 K2]. rewrite K1, EU, EN in Hn. rewrite EU in K2.
    split; [exact Hn|]. split; [apply EV, K2|]. apply EF. rewrite <- EU. apply (C16_accepted_iff (map h l) size); [rewrite EU, EN; exact Hn|rewrite EU; exact K2|]. exists ws, fs. split; [exact H|].
    destruct (fields_loop_total (map h l) []) as (w3 & r & K3 & K4); [rewrite EU, EN; exact Hn|intros f Hf; split; [intros []|apply K2; rewrite <- EU; exact Hf]|].
    unfold fin_fields in H. apply bind_ok in H as (? & r' & ? & H1 & H & _). rewrite K3 in H1. injection H1 as _ <-. apply bind_ok in H as (? & ? & ? & _ & H & _). apply ret_ok in H as [<- _]. exists r. split; [exact K4|]. apply sort_fields_perm.
  - intros (Hn & Hv & Hc). apply EF in Hc. rewrite <- EU in Hc. apply (C16_accepted_iff (map h l) size) in Hc; [|rewrite EU, EN; exact Hn|rewrite EU; apply EV; exact Hv]. destruct Hc as (ws & fs & H & _). exists ws, fs. exact H.
Qed.

(** ** The alternates *)
Lemma check_item_total item al f iv : ok (check_item item al f iv).
Proof.
  unfold check_item. induction iv as [|[e n] iv IH]; cbn [iterM]; [apply ok_ret|]. apply ok_bind; [|intros; exact IH].
  destruct (rc_base item <=? e); [|apply ok_ret]. destruct al; unfold warn_if; destruct (negb _); eexists; eexists; reflexivity.
Qed.
Lemma check_rc_ok_iff regs clus l : NoDup (map fst regs) -> forall iv, ok (check_rc_overlaps regs clus iv l) <->
  (forall c ch, In (Clu c ch) l -> ok (compute_allowed true (map (fun p => (fst p, cb_altclu (c_b (snd p)))) clus) (cb_altclu (c_b c)))).
Proof.
  intros Hr. assert (Hr' : NoDup (map fst (map (fun p => (fst p, rb_altreg (r_b (snd p)))) regs))) by (rewrite map_map; exact Hr).
  induction l as [|[r|c ch] l IH]; intros iv; cbn [check_rc_overlaps].
  - split; [intros _ ? ? []|intros; apply ok_ret].
  - assert (X : forall iv', ok (check_rc_overlaps regs clus iv' l) <-> (forall c ch, In (Clu c ch) (Reg r :: l) -> ok (compute_allowed true (map (fun p => (fst p, cb_altclu (c_b (snd p)))) clus) (cb_altclu (c_b c))))).
    { intros iv'. rewrite IH. split; [intros H c ch [K|K]; [discriminate|eauto]|intros H c ch K; apply (H c ch); now right]. }
    destruct (rb_altgroup (r_b r)); [apply X|]. rewrite <- (X (iv ++ [(rc_end (Reg r), rc_name (Reg r))])). split.
    + intros H. apply ok_bind_inv in H as (? & ? & _ & H). apply ok_bind_inv in H as (? & ? & _ & H). exact H.
    + intros H. apply ok_bind; [|intros; apply ok_bind; [apply check_item_total|intros; exact H]].
      destruct (rb_altreg (r_b r)) as [s|]; [|apply ok_ret]. destruct (C19_family _ s Hr') as (al & K & _). eexists; eexists; exact K.
  - split.
    + intros H. apply ok_bind_inv in H as (w & al & H1 & H). apply ok_bind_inv in H as (? & ? & _ & H). intros c' ch' [K|K]; [injection K as <- <-; exists w, al; exact H1|]. eapply IH; [exact H|exact K].
    + intros H. apply ok_bind; [apply (H c ch); now left|]. intros w al _. apply ok_bind; [apply check_item_total|]. intros. apply IH. intros c' ch' K. apply (H c' ch'). now right.
Qed.
Lemma strict_ok_iff {A} (key : A -> string) (alt : A -> option string) (l : list A) : NoDup (map key l) ->
  let alts := map (fun x => (key x, alt x)) l in
  (forall x, In x l -> ok (compute_allowed true alts (alt x))) <-> (forall x a, In x l -> alt x = Some a -> In a (map key l)).
Proof.
  intros Hn alts. assert (Hn' : NoDup (map fst alts)) by (unfold alts; rewrite map_map; exact Hn). assert (EK : map fst alts = map key l) by (unfold alts; rewrite map_map; reflexivity). split.
  - intros H x a Hx Ha. specialize (H x Hx). rewrite Ha in H. destruct (in_dec string_dec a (map key l)) as [K|K]; [exact K|]. destruct (C19_family_strict alts a Hn') as [_ X].
    destruct (X a (Fam_start _ _)) as (n & E); [rewrite EK; exact K|]. destruct H as (? & ? & H). rewrite E in H. discriminate.
  - intros H x Hx. destruct (alt x) as [a|] eqn:Ea; [|apply ok_ret]. destruct (C19_family_strict alts a Hn') as [X _]. destruct X as (r & E & _); [|eexists; eexists; exact E].
    intros y Hy. rewrite EK. assert (HA : forall z b, In (z, Some b) alts -> In z (map key l) /\ In b (map key l)).
    { intros z b K. unfold alts in K. apply in_map_iff in K as (u & K & Hu). injection K as <- K. split; [now apply in_map|]. eapply H; eauto. }
    induction Hy as [|y z Hy IH Hin|y z Hy IH Hin]; [eapply H; eauto|exact (proj2 (HA _ _ Hin))|exact (proj1 (HA _ _ Hin))].
Qed.

(** ** Siblings *)
Definition same (x : irc) (y : rc) : Prop :=
  rc_dup_name y = i_lookup_name x /\ match x, y with IReg _, Reg _ => True | IClu c _, Clu d _ => c_b d = ic_b c | _, _ => False end.
Lemma same_names ks ys : Forall2 same ks ys -> map rc_dup_name ys = map i_lookup_name ks.
Proof. induction 1 as [|x y ks ys [H _] _ IH]; [reflexivity|]. cbn [map]. now rewrite H, IH. Qed.
Lemma same_clus ks ys : Forall2 same ks ys -> map fst (clu_lookup ys) = cluster_names ks /\
  (forall d ch, In (Clu d ch) ys -> exists c l, In (IClu c l) ks /\ c_b d = ic_b c) /\ (forall c l, In (IClu c l) ks -> exists d ch, In (Clu d ch) ys /\ c_b d = ic_b c).
Proof.
  induction 1 as [|x y ks ys [H1 H2] _ (IH1 & IH2 & IH3)]; [cbn; repeat split; contradiction|]. destruct x as [r|c l], y as [q|d ch]; try contradiction.
  - repeat split; [exact IH1| |].
    + intros d ch [K|K]; [discriminate|]. destruct (IH2 _ _ K) as (c & l & K1 & K2). exists c, l. split; [now right|exact K2].
    + intros c l [K|K]; [discriminate|]. destruct (IH3 _ _ K) as (d & ch & K1 & K2). exists d, ch. split; [now right|exact K2].
  - repeat split.
    + cbn [clu_lookup cluster_names flat_map map app fst]. f_equal; [cbn; now rewrite H2|exact IH1].
    + intros d' ch' [K|K]; [injection K as <- <-; exists c, l; split; [now left|exact H2]|]. destruct (IH2 _ _ K) as (c' & l' & K1 & K2). exists c', l'. split; [now right|exact K2].
    + intros c' l' [K|K]; [injection K as <- <-; exists d, ch; split; [now left|exact H2]|]. destruct (IH3 _ _ K) as (d' & ch' & K1 & K2). exists d', ch'. split; [now right|exact K2].
Qed.
Lemma clu_lookup_in ys c : In c (map snd (clu_lookup ys)) <-> exists ch, In (Clu c ch) ys.
Proof.
  induction ys as [|[r|c0 ch0] ys IH]; [cbn; split; [tauto|intros (? & [])]| |]; cbn [clu_lookup flat_map app map snd].
  - fold (clu_lookup ys). rewrite IH. split; intros (ch & H); exists ch; [now right|destruct H as [H|H]; [discriminate|exact H]].
  - fold (clu_lookup ys). cbn [In]. rewrite IH. split.
    + intros [<-|(ch & H)]; [exists ch0; now left|exists ch; now right].
    + intros (ch & [H|H]); [injection H as <- _; now left|right; eauto].
Qed.
Lemma clu_lookup_self ys : clu_lookup ys = map (fun c => (cb_name (c_b c), c)) (map snd (clu_lookup ys)).
Proof. induction ys as [|[r|c ch] ys IH]; [reflexivity|exact IH|]. cbn [clu_lookup flat_map app map snd]. fold (clu_lookup ys). cbn [rc_dup_name]. f_equal. exact IH. Qed.
Lemma overlaps_fine ks ys s : Forall2 same ks ys -> NoDup (map rc_dup_name ys) -> Permutation ys s -> ok (check_rc_overlaps (reg_lookup ys) (clu_lookup ys) [] s) <-> SiblingsFine ks.
Proof.
  intros HS Hn HP. rewrite (check_rc_ok_iff _ _ _ (proj2 (reg_lookup_keys ys) Hn)). destruct (same_clus _ _ HS) as (K1 & K2 & K3).
  set (cl := map snd (clu_lookup ys)). assert (Ec : clu_lookup ys = map (fun c => (cb_name (c_b c), c)) cl) by apply clu_lookup_self.
  assert (En : map fst (clu_lookup ys) = map (fun c => cb_name (c_b c)) cl) by (rewrite Ec, map_map; reflexivity).
  assert (Hk : NoDup (map (fun c => cb_name (c_b c)) cl)) by (rewrite <- En; exact (proj2 (clu_lookup_keys ys) Hn)).
  assert (X := strict_ok_iff (fun c => cb_name (c_b c)) (fun c => cb_altclu (c_b c)) cl Hk). cbn zeta in X.
  assert (Ea : map (fun p => (fst p, cb_altclu (c_b (snd p)))) (clu_lookup ys) = map (fun x => (cb_name (c_b x), cb_altclu (c_b x))) cl) by (rewrite Ec, map_map; reflexivity). rewrite Ea.
  unfold SiblingsFine. rewrite <- K1, En. split.
  - intros H. split; [rewrite <- (same_names _ _ HS); exact Hn|]. intros c ch a Hin Ha. destruct (K3 _ _ Hin) as (d & ch' & Hd & E). apply (proj1 X) with (x := d).
    + intros x Hx. apply clu_lookup_in in Hx as (ch2 & Hx). eapply H. eapply Permutation_in; [exact HP|exact Hx].
    + apply clu_lookup_in. eauto.
    + now rewrite E.
  - intros [_ H] c ch Hin. apply (proj2 X).
    + intros x a Hx Ha. apply clu_lookup_in in Hx as (ch2 & Hx). destruct (K2 _ _ Hx) as (c2 & l2 & Hc2 & E). eapply H; [exact Hc2|now rewrite <- E].
    + apply clu_lookup_in. exists ch. eapply Permutation_in; [apply Permutation_sym, HP|exact Hin].
Qed.
Lemma fin_loop_total f l ys ws : Loop f l ys ws -> forall acc, NoDup (map rc_dup_name (acc ++ ys)) -> fin_loop f l acc = (ws, Ok (acc ++ ys)).
Proof.
  induction 1 as [|x l y ys w ws Hf HL IH|x l ys w ws Hf HL IH]; intros acc Hn; cbn [fin_loop].
  - rewrite app_nil_r. reflexivity.
  - fold (fin_loop f). unfold bind at 1. rewrite Hf. assert (Em : mem_str (rc_dup_name y) (map rc_dup_name acc) = false).
    { destruct (mem_str _ _) eqn:E; [|reflexivity]. apply mem_str_In in E. rewrite map_app in Hn. cbn [map] in Hn. apply NoDup_remove_2 in Hn. destruct Hn. apply in_or_app. now left. }
    rewrite Em. unfold raise_if at 1. rewrite bind_ret_l. rewrite (IH (acc ++ [y])); rewrite <- app_assoc; [reflexivity|exact Hn].
  - fold (fin_loop f). unfold bind at 1. rewrite Hf, (IH acc Hn). reflexivity.
Qed.
Lemma Loop_fun f l ys ws : Loop f l ys ws -> forall ys' ws', Loop f l ys' ws' -> ys = ys' /\ ws = ws'.
Proof.
  induction 1 as [|x l y ys w ws Hf HL IH|x l ys w ws Hf HL IH]; intros ys' ws' H; inversion H as [|x' l' y' ys2 w2 ws2 Hf2 HL2|x' l' ys2 w2 ws2 Hf2 HL2]; subst; [auto| | | |]; rewrite Hf in Hf2; try discriminate; injection Hf2; intros; subst; destruct (IH _ _ HL2) as [<- <-]; auto.
Qed.

(** ** Registers and clusters *)
Definition verdict (chain : list oprops) (x : irc) (m : M (option rc)) : Prop :=
  (exists ws y, m = (ws, Ok (Some y)) /\ Kept chain x /\ ~ Dropped chain x /\ same x y) \/
  (exists ws, m = (ws, Ok None) /\ Dropped chain x /\ ~ Kept chain x) \/
  (~ ok m /\ ~ Kept chain x /\ ~ Dropped chain x).
Lemma sift_verdict chain (f : irc -> M (option rc)) (h : irc -> irc) l : (forall x, In x l -> verdict chain x (f (h x))) ->
  (exists ks ys ws, Loop f (map h l) ys ws /\ Sift chain l ks /\ (forall ks', Sift chain l ks' -> ks' = ks) /\ Forall2 same ks ys) \/
  ((exists x, In x l /\ ~ ok (f (h x))) /\ forall ks, ~ Sift chain l ks).
Proof.
  induction l as [|x l IH]; intros HV.
  - left. exists [], [], []. repeat split; try constructor. intros ks' H. inversion H. reflexivity.
  - destruct (HV x (or_introl eq_refl)) as [(w & y & E & K & ND & S0)|[(w & E & D & NK)|(E & NK & ND)]].
    + destruct IH as [(ks & ys & ws & HL & HS & HU & HF)|((x' & Hx' & E') & HN)]; [intros; apply HV; now right| |].
      * left. exists (x :: ks), (y :: ys), (w ++ ws). split; [cbn [map]; constructor; assumption|]. split; [constructor; assumption|]. split; [|constructor; assumption].
        intros ks' H. inversion H; subst; [f_equal; auto|contradiction].
      * right. split; [exists x'; split; [now right|exact E']|]. intros ks H. inversion H; subst; eapply HN; eassumption.
    + destruct IH as [(ks & ys & ws & HL & HS & HU & HF)|((x' & Hx' & E') & HN)]; [intros; apply HV; now right| |].
      * left. exists ks, ys, (w ++ ws). split; [cbn [map]; constructor; assumption|]. split; [apply Sift_drop; assumption|]. split; [|assumption].
        intros ks' H. inversion H; subst; [contradiction|auto].
      * right. split; [exists x'; split; [now right|exact E']|]. intros ks H. inversion H; subst; eapply HN; eassumption.
    + right. split; [exists x; split; [now left|exact E]|]. intros ks H. inversion H; subst; contradiction.
Qed.
Lemma fin_rcs_verdict chain (f : irc -> M (option rc)) (h : irc -> irc) l : (forall x, In x l -> verdict chain x (f (h x))) ->
  (exists ws s ks, fin_rcs f (map h l) = (ws, Ok s) /\ Sift chain l ks /\ (forall ks', Sift chain l ks' -> ks' = ks) /\ SiblingsFine ks /\ length s = length ks) \/
  (~ ok (fin_rcs f (map h l)) /\ forall ks, Sift chain l ks -> ~ SiblingsFine ks).
Proof.
  intros HV. destruct (sift_verdict chain f h l HV) as [(ks & ys & ws & HL & HS & HU & HF)|((x & Hx & E) & HN)].
  - assert (HP : Permutation ys (isort rc_le ys)) by apply isort_perm.
    destruct (fin_rcs f (map h l)) as [w [s|e]] eqn:EF.
    + left. destruct (fin_rcs_ok _ _ _ _ EF) as (ys' & w1 & w2 & HL' & Hn & -> & Hc & _). destruct (Loop_fun _ _ _ _ HL _ _ HL') as [<- _].
      exists w, (isort rc_le ys), ks. split; [reflexivity|]. split; [exact HS|]. split; [exact HU|]. split; [apply (overlaps_fine ks ys (isort rc_le ys) HF Hn HP); eexists; eexists; exact Hc|].
      rewrite <- (Permutation_length HP). rewrite <- (map_length rc_dup_name ys), (same_names _ _ HF), map_length. reflexivity.
    + right. split; [intros (? & ? & X); discriminate|]. intros ks' HS' HF'. rewrite (HU _ HS') in HF'.
      assert (Hn : NoDup (map rc_dup_name ys)) by (rewrite (same_names _ _ HF); exact (proj1 HF')).
      apply (overlaps_fine ks ys (isort rc_le ys) HF Hn HP) in HF' as (w2 & u & HF').
      unfold fin_rcs in EF. rewrite (fin_loop_total _ _ _ _ HL [] Hn) in EF. cbn [app] in EF. unfold bind at 1 in EF. unfold bind in EF. rewrite HF' in EF. discriminate.
  - right. split; [|intros ks H; destruct (HN _ H)]. intros (w & s & H). destruct (fin_rcs_ok _ _ _ _ H) as (ys & w1 & w2 & HL & _). destruct (Loop_cover _ _ _ _ HL (h x) (in_map h _ _ Hx)) as [(y & w0 & _ & K & _)|(w0 & K & _)]; apply E; eexists; eexists; exact K.
Qed.
Lemma align_ok b : ok (get_alignment b) <-> b = 1 \/ b = 2 \/ b = 4 \/ b = 8 \/ b = 16.
Proof.
  split; [intros (w & a & H); apply (proj1 (get_alignment_ok _ _ _ H))|]. unfold get_alignment. intros H. repeat (match goal with |- context [?x =? ?y] => destruct (Z.eqb_spec x y); [apply ok_ret|] end). lia.
Qed.
Lemma fit_align s : s mod 8 = 0 -> (fit_size s <-> s / 8 = 1 \/ s / 8 = 2 \/ s / 8 = 4 \/ s / 8 = 8 \/ s / 8 = 16).
Proof. intros H. assert (E := Z.div_mod s 8). unfold fit_size. lia. Qed.
Lemma fit_mod s : fit_size s -> s mod 8 = 0.
Proof. intros [->|[->|[->|[->| ->]]]]; reflexivity. Qed.
Lemma warn_if_ok b w : ok (warn_if b w).
Proof. unfold warn_if. destruct b; eexists; eexists; reflexivity. Qed.
(** the shape of [fin_rc] after the tests on the size *)
Definition fin_rest (x : irc) (base size : Z) : M (option rc) :=
  match x with
  | IClu c l =>
      children <- fin_rcs (fun y => fin_rc y base) l ;;
      match children with
      | [] => warn (W_ClusterEmpty (cb_name (ic_b c))) ;;; ret None
      | _ =>
          let e := max_list (map (fun ch => rc_base ch + rc_bytes ch - 1) children) in
          p <- reg_prop_validator (ic_props c) ;;
          ret (Some (Clu (mk_clu (ic_b c) p base e (e - base + 1)) children))
      end
  | IReg r =>
      if is_reserved (rb_name (ir_b r)) then warn W_RegReserved ;;; ret None
      else
        raise_if (is_some (rb_altreg (ir_b r)) && is_some (rb_altgroup (ir_b r))) ProcessException
          "Register cannot have both alternate_register and alternate_group" ;;;
        fs <- fin_fields (ir_fields r) size ;;
        p <- reg_prop_validator (ir_props r) ;;
        ret (Some (Reg (mk_reg (ir_b r) p fs base)))
  end.
Lemma fin_rc_shape x base s : op_size (irc_props x) = Some s ->
  (s mod 8 <> 0 /\ exists w, fin_rc x base = (w, Ok None)) \/
  (s mod 8 = 0 /\ ~ fit_size s /\ ~ ok (fin_rc x base)) \/
  (fit_size s /\ exists w, fin_rc x base = (w ++ fst (fin_rest x (base + irc_offset x) s), snd (fin_rest x (base + irc_offset x) s))).
Proof.
  intros Hs. assert (E : fin_rc x base = if negb (s mod 8 =? 0) then warn (W_RcSize (irc_name x)) ;;; ret None else
    bytes <- to_byte s ;; alignment <- get_alignment bytes ;; warn_if (negb (irc_offset x mod alignment =? 0)) (W_RcUnaligned (irc_name x)) ;;; fin_rest x (base + irc_offset x) s).
  { destruct x; cbn [fin_rc]; cbn [irc_props] in *; rewrite Hs; reflexivity. }
  destruct (Z.eqb_spec (s mod 8) 0) as [H8|H8]; cbn [negb] in E.
  - right. unfold to_byte in E. destruct (Z.eqb_spec (s mod 8) 0) as [_|]; [|contradiction]. cbn [negb] in E. unfold raise_if in E. rewrite bind_ret_l, bind_ret_l in E.
    destruct (ok_dec (get_alignment (s / 8))) as [A|A].
    + right. split; [apply fit_align, align_ok; assumption|]. destruct A as (w & a & A). destruct (warn_if_ok (negb (irc_offset x mod a =? 0)) (W_RcUnaligned (irc_name x))) as (w2 & u & W). exists (w ++ w2).
      rewrite E. unfold bind. rewrite A, W. destruct (fin_rest x (base + irc_offset x) s) as [w3 [o|e]]; cbn [fst snd]; now rewrite app_assoc.
    + left. split; [exact H8|]. split; [rewrite (fit_align s H8), <- align_ok; exact A|]. intros K. rewrite E in K. apply ok_bind_inv in K as (w & a & K & _). apply A. eexists; eexists; exact K.
  - left. split; [exact H8|]. rewrite E. eexists. reflexivity.
Qed.
Lemma size_fun chain x s s' : size_at chain x s -> size_at chain x s' -> s = s'.
Proof. unfold size_at. intros H1 H2. rewrite H1 in H2. now injection H2. Qed.
Lemma inherit_lookup up x : irc_props (inherit_rc up x) = inherit_oprops (the_props x) up.
Proof. destruct x; reflexivity. Qed.
Lemma size_inherited chain p x : up_is chain (oprops_of_props p) -> exists s, size_at chain x s /\ op_size (irc_props (inherit_rc (oprops_of_props p) x)) = Some s.
Proof.
  intros H. rewrite inherit_lookup. destruct (inherit_complete (the_props x) p) as (q & E). exists (p_size q). destruct (up_inherit _ _ (the_props x) H) as (K & _). unfold size_at. rewrite <- K, E. split; reflexivity.
Qed.
Lemma fin_rc_verdict x : forall chain p base, up_is chain (oprops_of_props p) -> verdict chain x (fin_rc (inherit_rc (oprops_of_props p) x) base).
Proof.
  induction x as [r|c l IH] using irc_ind'; intros chain p base HU.
  - destruct (size_inherited chain p (IReg r) HU) as (s & Hs & Hs').
    assert (ND : fit_size s -> reserved_name (rb_name (ir_b r)) = false -> ~ Dropped chain (IReg r)).
    { intros HF HR HD. assert (H8 := fit_mod s HF). inversion HD; subst; try match goal with H : size_at _ _ _ |- _ => rewrite <- (size_fun _ _ _ _ Hs H) in * end; congruence. }
    destruct (fin_rc_shape _ base s Hs') as [(H8 & w & E)|[(H8 & HF & E)|(HF & w & E)]].
    + right. left. exists w. split; [exact E|]. split; [eapply Drop_size; eassumption|]. intros K. inversion K; subst. match goal with H : size_at _ _ _ |- _ => rewrite <- (size_fun _ _ _ _ Hs H) in * end. apply H8, fit_mod. assumption.
    + right. right. split; [exact E|]. split; intros K; inversion K; subst; match goal with H : size_at _ _ _ |- _ => rewrite <- (size_fun _ _ _ _ Hs H) in * end; contradiction.
    + set (R := fin_rest _ _ _) in E. destruct (inherit_complete (ir_props r) p) as (q & Eq).
      assert (HQ : up_is (ir_props r :: chain) (oprops_of_props q)) by (rewrite <- Eq; now apply up_inherit).
      destruct (reserved_name (rb_name (ir_b r))) eqn:ER.
      * right. left. assert (ER' : R = (warn W_RegReserved ;;; ret None)) by (unfold R; cbn [inherit_rc fin_rest ir_b]; unfold is_reserved; unfold reserved_name in ER; now rewrite ER). rewrite E, ER'. eexists. split; [reflexivity|].
        split; [eapply Drop_reserved; eassumption|]. intros K. inversion K; subst. congruence.
      * assert (ER' : R = (raise_if (is_some (rb_altreg (ir_b r)) && is_some (rb_altgroup (ir_b r))) ProcessException "Register cannot have both alternate_register and alternate_group" ;;;
          fs <- fin_fields (map (inherit_field (Some (p_access q)) (rb_wc (ir_b r))) (ir_fields r)) s ;; ret (Some (Reg (mk_reg (ir_b r) q fs (base + rb_offset (ir_b r))))))).
        { unfold R. cbn [inherit_rc fin_rest ir_b irc_offset ir_fields ir_props]. rewrite Eq. unfold is_reserved. unfold reserved_name in ER. rewrite ER. cbn [op_access oprops_of_props reg_prop_validator op_size op_prot op_rv op_rm].
          destruct q as [qs qa qp qv qm]. unfold reg_prop_validator. cbn [op_access op_size op_prot op_rv op_rm oprops_of_props p_access p_size p_prot p_rv p_rm]. f_equal. }
        assert (HA : nearest (map op_access (ir_props r :: chain)) = Some (p_access q)) by (destruct HQ as (_ & K & _); rewrite <- K; reflexivity).
        assert (HFF := fields_fine (map op_access (ir_props r :: chain)) (p_access q) (rb_wc (ir_b r)) (ir_fields r) s HA).
        assert (NK : ~ ok R -> ~ ok (fin_rc (inherit_rc (oprops_of_props p) (IReg r)) base)).
        { intros N (w' & o & K). apply N. rewrite E in K. injection K as _ K. destruct R as [wR oR]. cbn in K. subst. eexists; eexists; reflexivity. }
        destruct (is_some (rb_altreg (ir_b r)) && is_some (rb_altgroup (ir_b r))) eqn:EB.
        -- right. right. split; [apply NK; rewrite ER'; intros (? & ? & K); discriminate|]. split; [|apply ND; [exact HF|reflexivity]]. intros K. inversion K; subst. destruct (rb_altreg (ir_b r)), (rb_altgroup (ir_b r)); try discriminate. match goal with H : _ \/ _ |- _ => destruct H; discriminate end.
        -- destruct (ok_dec (fin_fields (map (inherit_field (Some (p_access q)) (rb_wc (ir_b r))) (ir_fields r)) s)) as [K|K].
           ++ left. assert (K' := proj1 HFF K). destruct K as (w2 & fs & K). unfold raise_if at 1 in ER'. rewrite bind_ret_l in ER'. unfold bind in ER'. rewrite K in ER'. rewrite E, ER'. eexists; eexists. split; [reflexivity|].
              split; [|split; [apply ND; [exact HF|reflexivity]|]].
              ** eapply Kept_reg; eauto. destruct (rb_altreg (ir_b r)), (rb_altgroup (ir_b r)); try discriminate; auto.
              ** split; [|exact Logic.I]. cbn [rc_dup_name i_lookup_name r_b]. destruct (rb_altgroup (ir_b r)) as [[|a g]|]; reflexivity.
           ++ right. right. split; [apply NK; rewrite ER'; unfold raise_if at 1; rewrite bind_ret_l; intros K2; apply ok_bind_inv in K2 as (? & ? & K2 & _); apply K; eexists; eexists; exact K2|]. split; [|apply ND; [exact HF|reflexivity]]. intros K2. inversion K2; subst. apply K, HFF. assumption.
  - destruct (size_inherited chain p (IClu c l) HU) as (s & Hs & Hs').
    destruct (fin_rc_shape _ base s Hs') as [(H8 & w & E)|[(H8 & HF & E)|(HF & w & E)]].
    + right. left. exists w. split; [exact E|]. split; [eapply Drop_size; eassumption|]. intros K. inversion K; subst. match goal with H : size_at _ _ _ |- _ => rewrite <- (size_fun _ _ _ _ Hs H) in * end. apply H8, fit_mod. assumption.
    + right. right. split; [exact E|]. split; intros K; inversion K; subst; match goal with H : size_at _ _ _ |- _ => rewrite <- (size_fun _ _ _ _ Hs H) in * end; contradiction.
    + set (R := fin_rest _ _ _) in E. destruct (inherit_complete (ic_props c) p) as (q & Eq).
      assert (HQ : up_is (ic_props c :: chain) (oprops_of_props q)) by (rewrite <- Eq; now apply up_inherit).
      assert (ER : R = (children <- fin_rcs (fun y => fin_rc y (base + cb_offset (ic_b c))) (map (inherit_rc (oprops_of_props q)) l) ;;
        match children with [] => warn (W_ClusterEmpty (cb_name (ic_b c))) ;;; ret None
        | _ => let e := max_list (map (fun ch => rc_base ch + rc_bytes ch - 1) children) in ret (Some (Clu (mk_clu (ic_b c) q (base + cb_offset (ic_b c)) e (e - (base + cb_offset (ic_b c)) + 1)) children)) end)).
      { unfold R. cbn [inherit_rc fin_rest ic_b irc_offset ic_props]. rewrite Eq. destruct q as [qs qa qp qv qm]. unfold reg_prop_validator. cbn [op_access op_size op_prot op_rv op_rm oprops_of_props p_access p_size p_prot p_rv p_rm].
        f_equal. }
      assert (HV : forall x, In x l -> verdict (ic_props c :: chain) x (fin_rc (inherit_rc (oprops_of_props q) x) (base + cb_offset (ic_b c)))).
      { intros x Hx. rewrite Forall_forall in IH. apply (IH x Hx). exact HQ. }
      destruct (fin_rcs_verdict (ic_props c :: chain) (fun y => fin_rc y (base + cb_offset (ic_b c))) (inherit_rc (oprops_of_props q)) l HV) as [(w2 & ch & ks & K & HS & HUn & HN & HL)|(K & HN)].
      * unfold bind in ER. rewrite K in ER. destruct ch as [|y0 ch].
        -- destruct ks; [|discriminate]. right. left. rewrite E, ER. eexists. split; [reflexivity|]. split; [eapply Drop_empty; eassumption|]. intros K2. inversion K2; subst. match goal with H : Sift _ _ _ |- _ => apply HUn in H; contradiction end.
        -- left. rewrite E, ER. eexists; eexists. split; [reflexivity|]. split; [|split].
           ++ eapply Kept_clu; try eassumption. destruct ks; discriminate.
           ++ intros K2. assert (H8 := fit_mod s HF). inversion K2; subst; [match goal with H : size_at _ _ _ |- _ => rewrite <- (size_fun _ _ _ _ Hs H) in * end; congruence|]. match goal with H : Sift _ _ _ |- _ => apply HUn in H; subst ks; discriminate end.
           ++ split; reflexivity.
      * right. right. split; [|split].
        -- intros (w' & o & K2). apply K. rewrite E in K2. injection K2 as _ K2. assert (KR : ok R) by (destruct R as [wR oR]; cbn in K2; subst; eexists; eexists; reflexivity). rewrite ER in KR. apply ok_bind_inv in KR as (? & ? & KR & _). eexists; eexists; exact KR.
        -- intros K2. inversion K2; subst. eapply HN; eassumption.
        -- intros K2. assert (H8 := fit_mod s HF). inversion K2; subst; [match goal with H : size_at _ _ _ |- _ => rewrite <- (size_fun _ _ _ _ Hs H) in * end; congruence|]. eapply HN; [eassumption|]. split; [constructor|intros ? ? ? []].
Qed.

(** ** Peripherals *)
Definition per_verdict (dev : oprops) (p : iper) (m : M (option per)) : Prop :=
  (exists ws y, m = (ws, Ok (Some y)) /\ PerKept dev p /\ ~ PerDropped dev p /\ pr_b y = ip_b p) \/
  (exists ws, m = (ws, Ok None) /\ PerDropped dev p /\ ~ PerKept dev p) \/
  (~ ok m /\ ~ PerKept dev p /\ ~ PerDropped dev p).
Lemma check_blocks_ok l : ok (check_address_blocks l).
Proof. destruct (check_address_blocks l) as [w [u|e]] eqn:E; [eexists; eexists; reflexivity|]. destruct (check_address_blocks_tt _ _ _ E). Qed.
Lemma fin_per_verdict dp p : per_verdict (all_props dp) p (fin_per (inherit_per (oprops_of_props dp) p)).
Proof.
  destruct (inherit_complete (ip_props p) dp) as (q & Eq).
  assert (HD : up_is [all_props dp] (oprops_of_props dp)) by (repeat split).
  assert (HQ : up_is [ip_props p; all_props dp] (oprops_of_props q)) by (rewrite <- Eq; now apply up_inherit).
  assert (HS : forall s, per_size (all_props dp) p s <-> s = p_size q).
  { intros s. unfold per_size. destruct HQ as (K & _). cbn [map] in K. rewrite <- K. cbn. split; [intros H; now injection H|now intros ->]. }
  set (R := fin_per _). assert (ER : R = (rcs <- fin_rcs (fun y => fin_rc y (pb_base (ip_b p))) (map (inherit_rc (oprops_of_props q)) (ip_rcs p)) ;;
    match rcs with [] => warn (W_PeriphEmpty (pb_name (ip_b p))) ;;; ret None
    | _ => warn_if (negb (pb_base (ip_b p) mod 4 =? 0)) (W_PeriphUnaligned (pb_name (ip_b p))) ;;;
      if negb (p_size q mod 8 =? 0) then warn (W_PeriphSize (pb_name (ip_b p))) ;;; ret None
      else
        raise_if (match pb_abs (ip_b p) with [] => true | _ => false end) ProcessException "Peripheral has no address blocks" ;;;
        check_address_blocks (pb_abs (ip_b p)) ;;;
        let end_spec := max_list (map (fun ab => pb_base (ip_b p) + ab_offset ab + ab_size ab - 1) (pb_abs (ip_b p))) in
        let size_spec := fold_left Z.add (map ab_size (pb_abs (ip_b p))) 0 in
        let end_eff := max_list (map (fun r => pb_base (ip_b p) + rc_offset r + rc_bytes r - 1) rcs) in
        ret (Some (mk_per (ip_b p) q end_spec end_eff size_spec (end_eff - pb_base (ip_b p) + 1) rcs (extract_registers rcs))) end)).
  { unfold R, fin_per. cbn [inherit_per ip_b ip_rcs ip_props]. rewrite Eq. destruct q as [qs qa qp qv qm]. unfold reg_prop_validator. cbn [op_access op_size op_prot op_rv op_rm oprops_of_props p_access p_size p_prot p_rv p_rm]. reflexivity. }
  clearbody R. subst R.
  assert (HV : forall x, In x (ip_rcs p) -> verdict [ip_props p; all_props dp] x (fin_rc (inherit_rc (oprops_of_props q) x) (pb_base (ip_b p)))) by (intros; now apply fin_rc_verdict).
  destruct (fin_rcs_verdict [ip_props p; all_props dp] (fun y => fin_rc y (pb_base (ip_b p))) (inherit_rc (oprops_of_props q)) (ip_rcs p) HV) as [(w2 & ch & ks & K & HSi & HUn & HN & HL)|(K & HN)].
  - assert (PC : forall ks', PerChildren (all_props dp) p ks' -> ks' = ks) by (intros ks' [X _]; auto).
    assert (PK : PerChildren (all_props dp) p ks) by (split; assumption).
    destruct ch as [|y0 ch].
    + destruct ks; [|discriminate]. right. left. unfold bind at 1. rewrite K. eexists. split; [reflexivity|]. split; [left; exact PK|]. intros ((ks' & X & Y) & _). apply PC in X. contradiction.
    + unfold bind at 1. rewrite K. destruct (warn_if_ok (negb (pb_base (ip_b p) mod 4 =? 0)) (W_PeriphUnaligned (pb_name (ip_b p)))) as (w3 & u3 & W3). unfold bind at 1. rewrite W3. destruct (Z.eqb_spec (p_size q mod 8) 0) as [H8|H8]; cbn [negb].
      * assert (NDr : ~ PerDropped (all_props dp) p). { intros [X|(ks' & s' & X & Y & Z)]; [apply PC in X; subst ks; discriminate|]. apply HS in Y. subst s'. contradiction. }
        destruct (pb_abs (ip_b p)) as [|ab abs] eqn:EA.
        -- right. right. split; [|split]; [intros (? & ? & X); discriminate| |exact NDr]. intros (_ & _ & X). now apply X.
        -- left. rewrite <- EA. destruct (check_blocks_ok (pb_abs (ip_b p))) as (w4 & u4 & W4). unfold raise_if at 1. rewrite bind_ret_l. unfold bind. rewrite W4. eexists; eexists. split; [reflexivity|]. split; [|split; [exact NDr|reflexivity]].
           split; [exists ks; split; [exact PK|destruct ks; discriminate]|]. split; [exists (p_size q); split; [now apply HS|exact H8]|rewrite EA; discriminate].
      * right. left. eexists. split; [reflexivity|]. split; [right; exists ks, (p_size q); split; [exact PK|]; split; [now apply HS|exact H8]|]. intros (_ & (s' & Y & Z) & _). apply HS in Y. subst s'. contradiction.
  - right. right. split; [|split].
    + intros X. apply ok_bind_inv in X as (? & ? & X & _). apply K. eexists; eexists; exact X.
    + intros ((ks' & [X Y] & _) & _). eapply HN; eassumption.
    + intros [[X Y]|(ks' & s' & [X Y] & _)]; eapply HN; eassumption.
Qed.
Lemma PLoop_fun l ys ws : PLoop l ys ws -> forall ys' ws', PLoop l ys' ws' -> ys = ys' /\ ws = ws'.
Proof.
  induction 1 as [|x l y ys w ws Hf HL IH|x l ys w ws Hf HL IH]; intros ys' ws' H; inversion H as [|x' l' y' ys2 w2 ws2 Hf2 HL2|x' l' ys2 w2 ws2 Hf2 HL2]; subst; [auto| | | |]; rewrite Hf in Hf2; try discriminate; injection Hf2; intros; subst; destruct (IH _ _ HL2) as [<- <-]; auto.
Qed.
Lemma fin_pers_loop_total l ys ws : PLoop l ys ws -> forall acc, NoDup (map per_name (acc ++ ys)) -> fin_pers_loop l acc = (ws, Ok (acc ++ ys)).
Proof.
  induction 1 as [|x l y ys w ws Hf HL IH|x l ys w ws Hf HL IH]; intros acc Hn; cbn [fin_pers_loop].
  - rewrite app_nil_r. reflexivity.
  - unfold bind at 1. rewrite Hf. assert (Em : mem_str (per_name y) (map per_name acc) = false).
    { destruct (mem_str _ _) eqn:E; [|reflexivity]. apply mem_str_In in E. rewrite map_app in Hn. cbn [map] in Hn. apply NoDup_remove_2 in Hn. destruct Hn. apply in_or_app. now left. }
    rewrite Em. unfold raise_if at 1. rewrite bind_ret_l. rewrite (IH (acc ++ [y])); rewrite <- app_assoc; [reflexivity|exact Hn].
  - unfold bind at 1. rewrite Hf, (IH acc Hn). reflexivity.
Qed.
Lemma check_intervals_total mkw p al alts iv : ok (check_per_intervals mkw p al alts iv).
Proof.
  unfold check_per_intervals. induction iv as [|[e n] iv IH]; cbn [iterM]; [apply ok_ret|]. apply ok_bind; [|intros; exact IH].
  destruct (pb_base (pr_b p) <=? e); [|apply ok_ret]. destruct al; apply warn_if_ok.
Qed.
Lemma check_per_ok_iff alts l : forall eff spec, ok (check_per_overlaps alts eff spec l) <-> (forall q, In q l -> ok (compute_allowed true alts (pb_altper (pr_b q)))).
Proof.
  induction l as [|q l IH]; intros eff spec; cbn [check_per_overlaps]; [split; [intros _ ? []|intros; apply ok_ret]|]. split.
  - intros H. apply ok_bind_inv in H as (w & al & H1 & H). apply ok_bind_inv in H as (? & ? & _ & H). apply ok_bind_inv in H as (? & ? & _ & H). intros q' [<-|Hq]; [exists w, al; exact H1|]. eapply IH; eassumption.
  - intros H. apply ok_bind; [apply H; now left|]. intros w al _. apply ok_bind; [apply check_intervals_total|]. intros. apply ok_bind; [apply check_intervals_total|]. intros. apply IH. intros q' Hq. apply H. now right.
Qed.
Lemma per_sift dp l :
  (exists ks ys ws, PLoop (map (inherit_per (oprops_of_props dp)) l) ys ws /\ PerSift (all_props dp) l ks /\ (forall ks', PerSift (all_props dp) l ks' -> ks' = ks) /\ Forall2 (fun p q => pr_b q = ip_b p) ks ys) \/
  ((exists x, In x l /\ ~ ok (fin_per (inherit_per (oprops_of_props dp) x))) /\ forall ks, ~ PerSift (all_props dp) l ks).
Proof.
  induction l as [|x l IH].
  - left. exists [], [], []. repeat split; try constructor. intros ks' H. inversion H. reflexivity.
  - destruct (fin_per_verdict dp x) as [(w & y & E & K & ND & S0)|[(w & E & D & NK)|(E & NK & ND)]].
    + destruct IH as [(ks & ys & ws & HL & HS & HU & HF)|((x' & Hx' & E') & HN)].
      * left. exists (x :: ks), (y :: ys), (w ++ ws). split; [cbn [map]; constructor; assumption|]. split; [constructor; assumption|]. split; [|constructor; assumption].
        intros ks' H. inversion H; subst; [f_equal; auto|contradiction].
      * right. split; [exists x'; split; [now right|exact E']|]. intros ks H. inversion H; subst; eapply HN; eassumption.
    + destruct IH as [(ks & ys & ws & HL & HS & HU & HF)|((x' & Hx' & E') & HN)].
      * left. exists ks, ys, (w ++ ws). split; [cbn [map]; constructor; assumption|]. split; [apply PSift_drop; assumption|]. split; [|assumption].
        intros ks' H. inversion H; subst; [contradiction|auto].
      * right. split; [exists x'; split; [now right|exact E']|]. intros ks H. inversion H; subst; eapply HN; eassumption.
    + right. split; [exists x; split; [now left|exact E]|]. intros ks H. inversion H; subst; contradiction.
Qed.
Lemma same_pers ks ys : Forall2 (fun p q => pr_b q = ip_b p) ks ys -> map per_name ys = map (fun p => pb_name (ip_b p)) ks /\
  ((forall q a, In q ys -> pb_altper (pr_b q) = Some a -> In a (map per_name ys)) <-> (forall p a, In p ks -> pb_altper (ip_b p) = Some a -> In a (map (fun p => pb_name (ip_b p)) ks))).
Proof.
  intros H. assert (E : map per_name ys = map (fun p => pb_name (ip_b p)) ks) by (induction H as [|p q ks ys Hb _ IH]; [reflexivity|cbn [map]; unfold per_name at 1; now rewrite Hb, IH]).
  split; [exact E|]. rewrite E. generalize (map (fun p => pb_name (ip_b p)) ks) as names. intros names. clear E. induction H as [|p q ks ys Hb _ IH]; [split; intros ? ? ? []|]. split.
  - intros K x a [<-|Hx] Ha; [apply (K q a); [now left|now rewrite Hb]|]. apply (proj1 IH) with (p := x); auto. intros q' a' Hq. apply K. now right.
  - intros K x a [<-|Hx] Ha; [apply (K p a); [now left|now rewrite <- Hb]|]. apply (proj2 IH) with (q := x); auto. intros q' a' Hq. apply K. now right.
Qed.
Theorem finalize_iff i : ok (finalize (inherit_properties i)) <-> Acceptable i.
Proof.
  unfold finalize, inherit_properties. cbn [idv_periphs idv_b]. set (dp := db_props (idv_b i)). set (L := map _ _).
  assert (X : ok (fin_pers L) <-> Acceptable i).
  { unfold Acceptable. fold dp. destruct (per_sift dp (idv_periphs i)) as [(ks & ys & ws & HL & HS & HU & HF)|((x & Hx & E) & HN)]; [fold L in HL|].
    - destruct (same_pers _ _ HF) as [EN EA].
      assert (C : NoDup (map per_name ys) -> (ok (check_per_overlaps (map (fun p => (per_name p, pb_altper (pr_b p))) ys) [] [] (isort per_le ys)) <-> forall p a, In p ks -> pb_altper (ip_b p) = Some a -> In a (map (fun p => pb_name (ip_b p)) ks))).
      { intros Hn. rewrite check_per_ok_iff, <- EA, <- (strict_ok_iff per_name (fun q => pb_altper (pr_b q)) ys Hn). split; intros H q Hq; apply H; eapply Permutation_in; try exact Hq; [apply isort_perm|apply Permutation_sym, isort_perm]. }
      split.
      + intros (w & s & H). destruct (fin_pers_ok _ _ _ H) as (ys' & w1 & w2 & HL' & Hn & -> & Hc & _). destruct (PLoop_fun _ _ _ HL _ _ HL') as [<- _]. exists ks. split; [exact HS|]. split; [rewrite <- EN; exact Hn|]. apply C; [exact Hn|]. eexists; eexists; exact Hc.
      + intros (ks' & HS' & Hn & HA). apply HU in HS'. subst ks'. rewrite <- EN in Hn. apply (C Hn) in HA as (w2 & u & HA). unfold fin_pers. rewrite (fin_pers_loop_total _ _ _ HL [] Hn). cbn [app]. unfold bind. rewrite HA. eexists; eexists; reflexivity.
    - split; [|intros (ks & H & _); destruct (HN _ H)]. intros (w & s & H). destruct (fin_pers_ok _ _ _ H) as (ys & w1 & w2 & HL & _).
      destruct (PLoop_cover _ _ _ HL (inherit_per (oprops_of_props dp) x) (in_map _ _ _ Hx)) as [(y & w0 & _ & K & _)|(w0 & K & _)]; destruct E; eexists; eexists; exact K. }
  rewrite <- X. split; [intros H; apply ok_bind_inv in H as (? & ? & H & _); eexists; eexists; exact H|]. intros H. apply ok_bind; [exact H|intros; apply ok_ret].
Qed.
