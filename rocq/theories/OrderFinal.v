(** * OrderFinal: validation does not depend on the order of siblings in the resolved device (C53). *)
From Verif Require Import Base PyStr PyInt Types DimModel EnumModel ElemModel FinalModel ConvertModel ResolveModel ProcessModel SpecProcess SpecDim SpecElem SpecEnum SpecDevice SpecImage SpecDeclared SpecExpand SpecAccept SpecAgain SpecOrder.
From Verif Require Import TextFacts DimFacts FinalFacts ElemFacts ImageFacts ResolveInv DescribeFacts BuildOk AcceptFacts FinalAccept AgainFacts AgainExpand PropsDim PropsElem PropsDevice PropsResolve PropsAccept.
From Coq Require Import ZifyBool ZifyNat ZifyN.

(** ** Resolved devices that differ only in order *)
Definition SameF (f g : ifield) : Prop :=
  if_b g = if_b f /\ if_access g = if_access f /\ Permutation (if_evcs f) (if_evcs g) /\ usages_ok (map ievc_usage (if_evcs f)).
Inductive SameRc : irc -> irc -> Prop :=
| Same_reg r q m : ir_b q = ir_b r -> ir_props q = ir_props r -> Permutation (ir_fields r) m -> Forall2 SameF m (ir_fields q) ->
    StronglySorted (leP ifield_le) (ir_fields r) -> StronglySorted (leP ifield_le) (ir_fields q) -> SameRc (IReg r) (IReg q)
| Same_clu c l d xs m : ic_b d = ic_b c -> ic_props d = ic_props c -> Permutation l m -> Forall2 SameRc m xs -> SameRc (IClu c l) (IClu d xs).
Definition SamePer (p q : iper) : Prop := ip_b q = ip_b p /\ ip_props q = ip_props p /\ Reordered SameRc (ip_rcs p) (ip_rcs q).
Definition SameDev (i j : idevice) : Prop := idv_b j = idv_b i /\ Reordered SamePer (idv_periphs i) (idv_periphs j).

(** *** Symmetry *)
Lemma reordered_sym {A} (R : A -> A -> Prop) l l' : Reordered R l l' -> (forall x y, In x l -> R x y -> R y x) -> Reordered R l' l.
Proof.
  intros (m & HP & HF) HS. destruct (perm_forall2 (fun y x => R y x) l' m) with (m' := l) as (k & K1 & K2); [|now apply Permutation_sym|exists k; split; assumption].
  assert (K : forall x, In x m -> In x l) by (intros x Hx; eapply Permutation_in; [apply Permutation_sym, HP|exact Hx]). clear HP. induction HF as [|x y m l' Hxy HF IH]; constructor; [apply HS; [apply K; now left|exact Hxy]|].
  apply IH. intros z Hz. apply K. now right.
Qed.
Lemma sameF_sym f g : SameF f g -> SameF g f.
Proof. intros (H1 & H2 & H3 & H4). repeat split; auto using Permutation_sym. exact (usages_perm _ _ (Permutation_map _ H3) H4). Qed.
Lemma sameRc_sym x : forall y, SameRc x y -> SameRc y x.
Proof.
  induction x as [r|c l IH] using irc_ind'; intros y H; inversion H as [? q m E1 E2 HP HF S1 S2|? ? d xs m E1 E2 HP HF]; subst.
  - destruct (reordered_sym SameF (ir_fields r) (ir_fields q)) as (k & K1 & K2); [exists m; auto|intros; now apply sameF_sym|]. econstructor; eauto.
  - rewrite Forall_forall in IH. destruct (reordered_sym SameRc l xs) as (k & K1 & K2); [exists m; auto|intros x y Hx; exact (IH x Hx y)|]. econstructor; eauto.
Qed.
Lemma samePer_sym p q : SamePer p q -> SamePer q p.
Proof. intros (H1 & H2 & H3). repeat split; auto. apply reordered_sym; [exact H3|]. intros x y _. apply sameRc_sym. Qed.
Lemma sameDev_sym i j : SameDev i j -> SameDev j i.
Proof. intros (H1 & H2). split; auto. apply reordered_sym; [exact H2|]. intros x y _. apply samePer_sym. Qed.

(** *** Inheritance *)
Lemma reordered_map {A B} (R : A -> A -> Prop) (R' : B -> B -> Prop) (h : A -> B) l l' : Reordered R l l' -> (forall x y, In x l -> R x y -> R' (h x) (h y)) -> Reordered R' (map h l) (map h l').
Proof.
  intros (m & HP & HF) HS. exists (map h m). split; [now apply Permutation_map|]. assert (K : forall x, In x m -> In x l) by (intros x Hx; eapply Permutation_in; [apply Permutation_sym, HP|exact Hx]). clear HP.
  induction HF as [|x y m l' Hxy HF IH]; constructor; [apply HS; [apply K; now left|exact Hxy]|]. apply IH. intros z Hz. apply K. now right.
Qed.
Lemma inherit_same x : forall up y, SameRc x y -> SameRc (inherit_rc up x) (inherit_rc up y).
Proof.
  induction x as [r|c l IH] using irc_ind'; intros up y H; inversion H as [? q m E1 E2 HP HF S1 S2|? ? d xs m E1 E2 HP HF]; subst; cbn [inherit_rc].
  - rewrite E1, E2. set (p := inherit_oprops _ _). destruct (reordered_map SameF SameF (inherit_field (op_access p) (rb_wc (ir_b r))) (ir_fields r) (ir_fields q)) as (k & K1 & K2); [exists m; auto| |].
    { intros f g _ (F1 & F2 & F3 & F4). unfold SameF, inherit_field. cbn [if_b if_access if_evcs]. rewrite F1, F2. auto. }
    apply (Same_reg _ _ k); cbn [ir_b ir_props ir_fields]; auto; (apply (sorted_map ifield_le); [reflexivity|assumption]).
  - rewrite E2. set (p := inherit_oprops _ _). rewrite Forall_forall in IH. destruct (reordered_map SameRc SameRc (inherit_rc p) l xs) as (k & K1 & K2); [exists m; auto|intros a b Ha; exact (IH a Ha p b)|]. apply (Same_clu _ _ _ _ k); auto.
Qed.

(** *** Fields *)
Lemma bind_intro {A B} (m : M A) (f : A -> M B) w a b : m = (w, Ok a) -> (exists w', f a = (w', Ok b)) -> exists w', bind m f = (w', Ok b).
Proof. intros -> (w' & E). cbn [bind]. rewrite E. eexists; reflexivity. Qed.
Lemma mapM_perm {A B} (f : A -> M B) l l' : Permutation l l' -> forall w r, mapM f l = (w, Ok r) -> exists w' r', mapM f l' = (w', Ok r') /\ Permutation r r'.
Proof.
  induction 1 as [|x l l' HP IH|x y l|l l' l'' _ IH1 _ IH2]; intros w r H.
  - exists w, r. auto.
  - cbn [mapM] in *. apply bind_ok in H as (w1 & a & w2 & H1 & H & ->). apply bind_ok in H as (w3 & r0 & w4 & H2 & H & ->). apply ret_ok in H as [<- ->]. destruct (IH _ _ H2) as (w' & r' & E & P).
    rewrite H1. cbn [bind]. rewrite E. cbn [bind ret]. eexists. exists (a :: r'). split; [reflexivity|now constructor].
  - cbn [mapM] in *. apply bind_ok in H as (w1 & a & w2 & H1 & H & ->). apply bind_ok in H as (w3 & r0 & w4 & H2 & H & ->). apply ret_ok in H as [<- ->].
    apply bind_ok in H2 as (w5 & b & w6 & H3 & H & ->). apply bind_ok in H as (w7 & r1 & w8 & H2 & H & ->). apply ret_ok in H as [<- ->].
    rewrite H3. cbn [bind]. rewrite H1. cbn [bind]. rewrite H2. cbn [bind ret]. eexists. exists (b :: a :: r1). split; [reflexivity|constructor].
  - destruct (IH1 _ _ H) as (w1 & r1 & E1 & P1). destruct (IH2 _ _ E1) as (w2 & r2 & E2 & P2). exists w2, r2. split; [exact E2|eapply Permutation_trans; eassumption].
Qed.
Lemma fin_evcs_perm l l' lsb msb w cs : Permutation l l' -> usages_ok (map ievc_usage l) -> fin_enum_containers l lsb msb = (w, Ok cs) -> exists w', fin_enum_containers l' lsb msb = (w', Ok cs).
Proof.
  intros HP HU H. unfold fin_enum_containers in *. apply bind_ok in H as (w1 & r & w2 & H1 & H & ->). apply ret_ok in H as [<- ->]. destruct (mapM_perm _ _ _ HP _ _ H1) as (w' & r' & E & P). rewrite E. cbn [bind ret]. eexists. f_equal. f_equal.
  assert (EU : map evc_usage r = map ievc_usage l).
  { clear - H1. apply mapM_ok_Forall2 in H1. clear w1. induction H1 as [|a b l r Hab HF IH]; [reflexivity|]. cbn. f_equal; [|exact IH]. destruct Hab as (w & Hab). apply bind_ok in Hab as (w1 & vs & w2 & _ & Hab & _). apply ret_ok in Hab as [<- _]. reflexivity. }
  assert (LT : forall x y, evc_le x y = false -> evc_le y x = true) by (intros x y; exact (cmp_le_total _ is_evc_cmp (evc_key x) (evc_key y))).
  assert (LR : forall x y z, evc_le x y = true -> evc_le y z = true -> evc_le x z = true) by (intros x y z; exact (cmp_le_trans _ is_evc_cmp (evc_key x) (evc_key y) (evc_key z))).
  apply isort_unique; [exact LT|exact LR| |apply isort_sorted; auto|].
  - eapply Permutation_trans; [apply Permutation_sym, P|apply isort_perm].
  - assert (HN : NoDup (map evc_usage r)) by (apply usages_distinct; now rewrite EU). intros x y Hx Hy A1 A2. apply (nodup_key evc_usage (isort evc_le r)); auto.
    + eapply Permutation_NoDup; [apply Permutation_map, isort_perm|exact HN].
    + assert (E' := cmp_le_antisym _ is_evc_cmp _ _ A1 A2). unfold evc_key in E'. injection E' as E' _. destruct (evc_usage x), (evc_usage y); cbn in E'; congruence.
Qed.

Definition kept_field (f : ifield) : bool := negb (String.eqb (lower (fb_name (if_b f))) "reserved").
Lemma loop_kept l : forall seen w ys, fin_fields_loop seen l = (w, Ok ys) -> exists w', fin_fields_loop seen (filter kept_field l) = (w', Ok ys).
Proof.
  induction l as [|f l IH]; intros seen w ys H; [eexists; exact H|]. cbn [filter]. unfold kept_field at 1. cbn [fin_fields_loop] in H. unfold is_reserved in H. destruct (String.eqb (lower (fb_name (if_b f))) "reserved") eqn:E; cbn [negb].
  - apply bind_ok in H as (w1 & [] & w2 & _ & H & ->). exact (IH _ _ _ H).
  - cbn [fin_fields_loop]. unfold is_reserved. rewrite E. apply bind_ok in H as (w1 & [] & w2 & H1 & H & ->). apply bind_ok in H as (w3 & cs & w4 & H2 & H & ->). apply bind_ok in H as (w5 & y & w6 & H3 & H & ->). apply bind_ok in H as (w7 & r & w8 & H4 & H & ->).
    destruct (IH _ _ _ H4) as (w' & E'). eapply bind_intro; [exact H1|]. eapply bind_intro; [exact H2|]. eapply bind_intro; [exact H3|]. eapply bind_intro; [exact E'|]. eexists; exact H.
Qed.
Lemma kept_loop l : forall seen w ys, fin_fields_loop seen (filter kept_field l) = (w, Ok ys) -> exists w', fin_fields_loop seen l = (w', Ok ys).
Proof.
  induction l as [|f l IH]; intros seen w ys H; [eexists; exact H|]. cbn [filter] in H. unfold kept_field at 1 in H. cbn [fin_fields_loop]. unfold is_reserved. destruct (String.eqb (lower (fb_name (if_b f))) "reserved") eqn:E; cbn [negb] in H.
  - eapply bind_intro; [reflexivity|]. exact (IH _ _ _ H).
  - cbn [fin_fields_loop] in H. unfold is_reserved in H. rewrite E in H. apply bind_ok in H as (w1 & [] & w2 & H1 & H & ->). apply bind_ok in H as (w3 & cs & w4 & H2 & H & ->). apply bind_ok in H as (w5 & y & w6 & H3 & H & ->). apply bind_ok in H as (w7 & r & w8 & H4 & H & ->).
    destruct (IH _ _ _ H4) as (w' & E'). eapply bind_intro; [exact H1|]. eapply bind_intro; [exact H2|]. eapply bind_intro; [exact H3|]. eapply bind_intro; [exact E'|]. eexists; exact H.
Qed.
Lemma loop_same k k' : Forall2 SameF k k' -> forall seen w ys, fin_fields_loop seen k = (w, Ok ys) -> exists w', fin_fields_loop seen k' = (w', Ok ys).
Proof.
  induction 1 as [|f g k k' (F1 & F2 & F3 & F4) HF IH]; intros seen w ys H; [eexists; exact H|]. cbn [fin_fields_loop] in *. rewrite F1. destruct (is_reserved (fb_name (if_b f))).
  - apply bind_ok in H as (w1 & [] & w2 & H1 & H & ->). eapply bind_intro; [exact H1|]. exact (IH _ _ _ H).
  - apply bind_ok in H as (w1 & [] & w2 & H1 & H & ->). apply bind_ok in H as (w3 & cs & w4 & H2 & H & ->). apply bind_ok in H as (w5 & y & w6 & H3 & H & ->). apply bind_ok in H as (w7 & r & w8 & H4 & H & ->).
    destruct (fin_evcs_perm _ _ _ _ _ _ F3 F4 H2) as (w' & E'). destruct (IH _ _ _ H4) as (w'' & E''). eapply bind_intro; [exact H1|]. eapply bind_intro; [exact E'|]. eapply bind_intro; [|eapply bind_intro; [exact E''|eexists; exact H]].
    unfold field_from in *. rewrite F1, F2. exact H3.
Qed.
Lemma Forall2_in_l {A B} (R : A -> B -> Prop) l m : Forall2 R l m -> forall a, In a l -> exists b, In b m /\ R a b.
Proof. induction 1 as [|x y l m H HF IH]; intros a []; [subst; exists y; split; [now left|exact H]|]. destruct (IH a H0) as (b & Hb & Hab). exists b. split; [now right|exact Hab]. Qed.
Lemma sorted_filter {A} (le : A -> A -> bool) (P : A -> bool) l : StronglySorted (leP le) l -> StronglySorted (leP le) (filter P l).
Proof.
  induction 1 as [|a l H IH HF]; cbn [filter]; [constructor|]. destruct (P a); [|exact IH]. constructor; [exact IH|]. rewrite Forall_forall in *. intros b Hb. apply filter_In in Hb as [Hb _]. now apply HF.
Qed.
Lemma perm_filter {A} (P : A -> bool) l m : Permutation l m -> Permutation (filter P l) (filter P m).
Proof.
  induction 1 as [|x l m H IH|x y l|l m k _ IH1 _ IH2]; cbn [filter]; [constructor|destruct (P x); auto|destruct (P x), (P y); auto; constructor|eapply Permutation_trans; eassumption].
Qed.
Lemma fin_fields_same l l' size w s : Reordered SameF l l' -> StronglySorted (leP ifield_le) l -> StronglySorted (leP ifield_le) l' -> fin_fields l size = (w, Ok s) -> exists w', fin_fields l' size = (w', Ok s).
Proof.
  intros (m & HP & HF) S1 S2 H. assert (HN : NoDup (map (fun f => fb_name (if_b f)) (filter kept_field l))).
  { destruct (fin_fields_ok _ _ _ _ H) as (ys & w1 & w2 & HL & Hn & _). destruct (FLoop_valued _ _ _ HL) as [K _]. rewrite K in Hn. exact Hn. }
  assert (HF' : Forall2 SameF (filter kept_field m) (filter kept_field l')).
  { clear - HF. induction HF as [|f g m l' Hfg HF IH]; [constructor|]. cbn [filter]. assert (E : kept_field g = kept_field f) by (unfold kept_field; now rewrite (proj1 Hfg)). rewrite E. destruct (kept_field f); [now constructor|exact IH]. }
  assert (E : filter kept_field l = filter kept_field m).
  { apply (sorted_unique ifield_le); [now apply perm_filter|now apply sorted_filter| |].
    - assert (S3 := sorted_filter ifield_le kept_field _ S2). clear - S3 HF'. induction HF' as [|f g k k' Hfg HF IH]; [constructor|]. apply StronglySorted_inv in S3 as [S3 F3]. constructor; [exact (IH S3)|]. rewrite Forall_forall in *.
      intros x Hx. destruct (Forall2_in_l _ _ _ HF x Hx) as (y & Hy & Hxy). specialize (F3 y Hy). unfold leP, ifield_le in *. rewrite <- (proj1 Hfg), <- (proj1 Hxy). exact F3.
    - intros x y Hx Hy A1 A2. apply (nodup_key (fun f => fb_name (if_b f)) _ HN); auto. unfold ifield_le, zs_le in *. assert (X := cmp_le_antisym _ is_reg_cmp _ _ A1 A2). exact (f_equal snd X). }
  rewrite <- E in HF'. unfold fin_fields in *. apply bind_ok in H as (w1 & ys & w2 & H1 & H & ->). destruct (loop_kept _ _ _ _ H1) as (w3 & H3). destruct (loop_same _ _ HF' _ _ _ H3) as (w4 & H4). destruct (kept_loop _ _ _ _ H4) as (w5 & H5).
  eapply bind_intro; [exact H5|]. eexists; exact H.
Qed.

(** *** Siblings *)
Lemma loop_perm f l l' : Permutation l l' -> forall ys w, Loop f l ys w -> exists ys' w', Loop f l' ys' w' /\ Permutation ys ys'.
Proof.
  induction 1 as [|x l l' HP IH|x y l|l l' l'' _ IH1 _ IH2]; intros ys w H.
  - exists ys, w. auto.
  - inversion H as [|? ? y ys0 w0 ws0 E HL|? ? ys0 w0 ws0 E HL]; subst; destruct (IH _ _ HL) as (ys' & w' & H' & P); [exists (y :: ys')|exists ys']; eexists; (split; [econstructor; eassumption|auto]).
  - inversion H as [|? ? a ys0 w0 ws0 E HL|? ? ys0 w0 ws0 E HL]; subst; inversion HL as [|? ? b ys1 w1 ws1 E' HL'|? ? ys1 w1 ws1 E' HL']; subst; do 2 eexists; (split; [econstructor; [eassumption|]; econstructor; eassumption|]); auto. constructor.
  - destruct (IH1 _ _ H) as (y1 & w1 & H1 & P1). destruct (IH2 _ _ H1) as (y2 & w2 & H2 & P2). exists y2, w2. split; [exact H2|eapply Permutation_trans; eassumption].
Qed.
Lemma loop_forall2 f m l' : Forall2 (fun x x' => forall w o, f x = (w, Ok o) -> exists w', f x' = (w', Ok o)) m l' -> forall ys w, Loop f m ys w -> exists w', Loop f l' ys w'.
Proof.
  induction 1 as [|x x' m l' Hx HF IH]; intros ys w H; [exists w; inversion H; constructor|].
  inversion H as [|? ? y ys0 w0 ws0 E HL|? ? ys0 w0 ws0 E HL]; subst; destruct (Hx _ _ E) as (w1 & E1), (IH _ _ HL) as (w2 & E2); eexists; [eapply Loop_keep|eapply Loop_drop]; eassumption.
Qed.
Lemma fin_rcs_same (f : irc -> M (option rc)) l l' w s : Reordered (fun x x' => forall w o, f x = (w, Ok o) -> exists w', f x' = (w', Ok o)) l l' -> fin_rcs f l = (w, Ok s) -> exists w', fin_rcs f l' = (w', Ok s).
Proof.
  intros (m & HP & HF) H. assert (HA := fin_rcs_alt _ _ _ _ H). apply fin_rcs_ok in H as (ys & w1 & w2 & HL & Hn & -> & Hc & _).
  destruct (loop_perm _ _ _ HP _ _ HL) as (ys' & w' & HL' & P). destruct (loop_forall2 _ _ _ HF _ _ HL') as (w'' & HL'').
  assert (HN : NoDup (map rc_dup_name ys')) by (eapply Permutation_NoDup; [apply Permutation_map, P|exact Hn]).
  assert (PS : Permutation ys' (isort rc_le ys)) by (eapply Permutation_trans; [apply Permutation_sym, P|apply isort_perm]).
  unfold fin_rcs. rewrite (fin_loop_total f l' ys' w'' HL'' [] HN). cbn [bind app].
  assert (E : isort rc_le ys' = isort rc_le ys).
  { apply isort_unique; [apply rc_le_total|apply rc_le_trans|exact PS|apply isort_sorted; [apply rc_le_total|apply rc_le_trans]|]. intros x y Hx Hy H1 H2. apply (nodup_key rc_dup_name (isort rc_le ys)); auto; [eapply Permutation_NoDup; [apply Permutation_map, isort_perm|exact Hn]|].
    apply rc_key_dup. exact (cmp_le_antisym _ is_rc_cmp _ _ H1 H2). }
  rewrite E. assert (C : ok (check_rc_overlaps (reg_lookup ys') (clu_lookup ys') [] (isort rc_le ys))) by (apply (overlaps_fine (map inj_rc ys') ys' (isort rc_le ys)); [apply inj_sames|exact HN|exact PS|apply (alt_perm (isort rc_le ys)); [now apply Permutation_sym|exact HA]]).
  destruct C as (w3 & [] & ->). eexists; reflexivity.
Qed.
Lemma fin_rc_same x : forall y base w o, SameRc x y -> fin_rc x base = (w, Ok o) -> exists w', fin_rc y base = (w', Ok o).
Proof.
  induction x as [r|c l IH] using irc_ind'; intros y base w o HS H; inversion HS as [? q m E1 E2 HP HF S1 S2|? ? d xs m E1 E2 HP HF]; subst; cbn [fin_rc irc_props irc_offset] in *.
  - rewrite E1, E2. destruct (op_size (ir_props r)) as [s|]; [|discriminate]. cbn [irc_name] in *. rewrite E1. destruct (negb (s mod 8 =? 0)); [eexists; exact H|].
    apply bind_ok in H as (w1 & b & w2 & H1 & H & ->). eapply bind_intro; [exact H1|]. apply bind_ok in H as (w3 & a & w4 & H2 & H & ->). eapply bind_intro; [exact H2|]. apply bind_ok in H as (w5 & [] & w6 & H3 & H & ->). eapply bind_intro; [exact H3|].
    destruct (is_reserved _); [eexists; exact H|]. apply bind_ok in H as (w7 & [] & w8 & H4 & H & ->). eapply bind_intro; [exact H4|]. apply bind_ok in H as (w9 & fs & w10 & H5 & H & ->).
    destruct (fin_fields_same _ (ir_fields q) _ _ _ (ex_intro _ m (conj HP HF)) S1 S2 H5) as (w' & E'). eapply bind_intro; [exact E'|]. eexists; exact H.
  - rewrite E1, E2. destruct (op_size (ic_props c)) as [s|]; [|discriminate]. cbn [irc_name] in *. rewrite E1. destruct (negb (s mod 8 =? 0)); [eexists; exact H|].
    apply bind_ok in H as (w1 & b & w2 & H1 & H & ->). eapply bind_intro; [exact H1|]. apply bind_ok in H as (w3 & a & w4 & H2 & H & ->). eapply bind_intro; [exact H2|]. apply bind_ok in H as (w5 & [] & w6 & H3 & H & ->). eapply bind_intro; [exact H3|].
    apply bind_ok in H as (w7 & ch & w8 & H4 & H & ->). destruct (fin_rcs_same (fun y => fin_rc y (base + cb_offset (ic_b c))) l xs w7 ch) as (w' & E'); [|exact H4|eapply bind_intro; [exact E'|]; eexists; exact H].
    exists m. split; [exact HP|]. rewrite Forall_forall in IH. assert (K : forall x, In x m -> In x l) by (intros x Hx; eapply Permutation_in; [apply Permutation_sym, HP|exact Hx]). clear - HF K IH.
    induction HF as [|x y m xs Hxy HF IHF]; constructor; [intros w o; exact (IH x (K x (or_introl eq_refl)) y _ w o Hxy)|apply IHF; intros; apply K; now right].
Qed.

(** *** Peripherals *)
Lemma inherit_per_same up p q : SamePer p q -> SamePer (inherit_per up p) (inherit_per up q).
Proof.
  intros (E1 & E2 & HR). unfold inherit_per, SamePer. cbn [ip_b ip_props ip_rcs]. rewrite E1, E2. repeat split. eapply reordered_map; [exact HR|]. intros x y _ Hxy. now apply inherit_same.
Qed.
Lemma fin_per_same p q w o : SamePer p q -> fin_per p = (w, Ok o) -> exists w', fin_per q = (w', Ok o).
Proof.
  intros (E1 & E2 & (m & HP & HF)) H. unfold fin_per in *. rewrite E1, E2. apply bind_ok in H as (w1 & rcs & w2 & H1 & H & ->).
  destruct (fin_rcs_same (fun y => fin_rc y (pb_base (ip_b p))) (ip_rcs p) (ip_rcs q) w1 rcs) as (w' & E'); [|exact H1|eapply bind_intro; [exact E'|]; eexists; exact H].
  exists m. split; [exact HP|]. clear - HF. induction HF as [|x y m xs Hxy HF IH]; constructor; [intros w o; now apply fin_rc_same|exact IH].
Qed.
Lemma ploop_perm l l' : Permutation l l' -> forall ys w, PLoop l ys w -> exists ys' w', PLoop l' ys' w' /\ Permutation ys ys'.
Proof.
  induction 1 as [|x l l' HP IH|x y l|l l' l'' _ IH1 _ IH2]; intros ys w H.
  - exists ys, w. auto.
  - inversion H as [|? ? y ys0 w0 ws0 E HL|? ? ys0 w0 ws0 E HL]; subst; destruct (IH _ _ HL) as (ys' & w' & H' & P); [exists (y :: ys')|exists ys']; eexists; (split; [econstructor; eassumption|auto]).
  - inversion H as [|? ? a ys0 w0 ws0 E HL|? ? ys0 w0 ws0 E HL]; subst; inversion HL as [|? ? b ys1 w1 ws1 E' HL'|? ? ys1 w1 ws1 E' HL']; subst; do 2 eexists; (split; [econstructor; [eassumption|]; econstructor; eassumption|]); auto. constructor.
  - destruct (IH1 _ _ H) as (y1 & w1 & H1 & P1). destruct (IH2 _ _ H1) as (y2 & w2 & H2 & P2). exists y2, w2. split; [exact H2|eapply Permutation_trans; eassumption].
Qed.
Lemma ploop_forall2 m l' : Forall2 SamePer m l' -> forall ys w, PLoop m ys w -> exists w', PLoop l' ys w'.
Proof.
  induction 1 as [|x x' m l' Hx HF IH]; intros ys w H; [exists w; inversion H; constructor|].
  inversion H as [|? ? y ys0 w0 ws0 E HL|? ? ys0 w0 ws0 E HL]; subst; destruct (fin_per_same _ _ _ _ Hx E) as (w1 & E1), (IH _ _ HL) as (w2 & E2); eexists; [eapply PLoop_keep|eapply PLoop_drop]; eassumption.
Qed.
Theorem finalize_same i j w dev : SameDev i j -> finalize (inherit_properties i) = (w, Ok dev) -> exists w', finalize (inherit_properties j) = (w', Ok dev).
Proof.
  intros (E1 & HR) H. assert (HA := proj1 (finalize_alt _ _ _ H)). unfold finalize, inherit_properties in *. cbn [idv_b idv_periphs] in *. rewrite E1. set (up := oprops_of_props _) in *.
  apply bind_ok in H as (w1 & ps & w2 & H1 & H & ->). apply ret_ok in H as [<- ->]. cbn [dv_periphs] in HA. unfold fin_pers in *. apply bind_ok in H1 as (w3 & r & w4 & H1 & H & ->). apply bind_ok in H as (w5 & [] & w6 & _ & H & _). apply ret_ok in H as [<- _].
  destruct (fin_pers_loop_ok _ _ _ _ H1) as (ys & E & HL & Hn); [constructor|]. cbn [app] in E. subst r. destruct (reordered_map SamePer SamePer (inherit_per up) _ _ HR) as (m & HP & HF); [intros p q _; apply inherit_per_same|].
  destruct (ploop_perm _ _ HP _ _ HL) as (ys' & w' & HL' & P). destruct (ploop_forall2 _ _ HF _ _ HL') as (w'' & HL'').
  assert (HN : NoDup (map per_name ys')) by (eapply Permutation_NoDup; [apply Permutation_map, P|exact Hn]).
  assert (PS : Permutation ys' (isort per_le ys)) by (eapply Permutation_trans; [apply Permutation_sym, P|apply isort_perm]).
  rewrite (fin_pers_loop_total _ _ _ HL'' [] HN). cbn [bind app].
  assert (E : isort per_le ys' = isort per_le ys).
  { apply isort_unique; [apply per_le_total|apply per_le_trans|exact PS|apply isort_sorted; [apply per_le_total|apply per_le_trans]|]. intros x y Hx Hy A1 A2. apply (nodup_key per_name (isort per_le ys)); auto; [eapply Permutation_NoDup; [apply Permutation_map, isort_perm|exact Hn]|].
    apply per_key_name. exact (cmp_le_antisym _ is_reg_cmp _ _ A1 A2). }
  rewrite E. assert (C : ok (check_per_overlaps (map (fun p => (per_name p, pb_altper (pr_b p))) ys') [] [] (isort per_le ys))).
  { apply check_per_ok_iff. intros q Hq. apply (strict_ok_iff per_name (fun p => pb_altper (pr_b p)) ys' HN); [|eapply Permutation_in; [apply Permutation_sym, PS|exact Hq]]. intros p a Hp Ha. assert (X := HA p a (Permutation_in _ PS Hp) Ha). eapply Permutation_in; [apply Permutation_map, Permutation_sym, PS|exact X]. }
  destruct C as (w7 & [] & ->). eexists; reflexivity.
Qed.
