(** * AgainExpand: the expansion of the description of a processed device (C31). *)
From Verif Require Import Base PyStr PyInt Types DimModel EnumModel ElemModel FinalModel ConvertModel ResolveModel ProcessModel SpecProcess SpecDim SpecElem SpecEnum SpecDevice SpecImage SpecDeclared SpecExpand SpecAccept SpecAgain.
From Verif Require Import TextFacts DimFacts EnumFacts FinalFacts ElemFacts ImageFacts ResolveInv DescribeFacts BuildOk AcceptFacts FinalAccept PropsDim PropsElem PropsEnum PropsDevice PropsResolve PropsExpand PropsAccept AgainFacts.
From Coq Require Import ZifyBool ZifyNat ZifyN.

Lemma described_single e vs tv : sd_dim (parsed_dim e) = None -> Described e None vs tv -> exists v, vs = [v] /\ tv = None /\ ~ has_placeholder (parsed_name e) /\
  processed_name v = parsed_name e /\ Placed e None 0 v /\ Attributes e None v /\ processed_display v = parsed_display e /\ (forall s, parsed_display e = Some s -> ~ has_placeholder s).
Proof.
  assert (Ed : eff_display e None = parsed_display e). { unfold eff_display. destruct (parsed_display e); [reflexivity|]. destruct e as [|?|[?|? ?]|?|?]; reflexivity. }
  intros E [v H1 H2 H3 H4 H5 H6 H7|? ? n ? ? Hn _ _ _ _ _ _ _ _ _ _].
  - rewrite Ed in *. exists v. auto 10.
  - unfold eff_dim in Hn. rewrite E in Hn. discriminate.
Qed.
Lemma bits_conv f m l : Bits (conv_field f) None m l -> m = f_msb f /\ l = f_lsb f.
Proof.
  intros H. destruct H as [s a b E|m l E HP|m l E HN]; [discriminate| |].
  - destruct HP as (_ & E1 & E2). cbn in E1, E2. injection E1 as <-. injection E2 as <-. auto.
  - exfalso. apply (HN (f_msb f) (f_lsb f)). split; [left; discriminate|]. auto.
Qed.
Lemma map_inj {A B} (h : A -> B) : (forall x y, h x = h y -> x = y) -> forall l m, map h l = map h m -> l = m.
Proof. intros Hh. induction l as [|a l IH]; intros [|b m] E; try discriminate; [reflexivity|]. cbn in E. injection E as E1 E2. f_equal; auto. Qed.
Lemma outs_field rwc ctx sc f os : FirmField rwc f -> Outs True Plainly eq ctx sc (PaFld (conv_field f)) os -> ~ has_placeholder (fb_name (f_b f)) /\ exists g, os = [PrFld g] /\ LikeF (again_field f) g.
Proof.
  intros HF H. inversion H as [? ? ? ks vs tv ? [-> HD] HFi]; subst. apply described_single in HD as (v & -> & -> & N & N1 & HP & HA & _ & _); [|reflexivity]. split; [exact N|].
  inversion HFi as [|? o ? ? HFl HN]; subst. inversion HN; subst. destruct v as [?|?|w]; try contradiction. inversion HFl as [? ? ? ? es ics cs Ek HE HPm Hu| | | | |]; subst.
  destruct HP as (m & l & HB & E1 & E2). apply bits_conv in HB as [-> ->]. rewrite Z.add_0_r in E1, E2.
  assert (Eb : if_b w = f_b f). { destruct HA as (A1 & A2 & A3 & A4 & _). cbn in N1, A1, A2, A3, A4. destruct w as [b ? ? ?]. cbn in *. destruct b. cbn in *. unfold f_msb, f_lsb in *. destruct (f_b f). cbn in *. unfold inh, own_or in *. cbn in *. destruct fb_descr0, fb_wc0, fb_ra0; subst; reflexivity. }
  assert (Ea : if_access w = Some (f_access f)) by apply HA.
  eexists. split; [reflexivity|]. split; [exact Eb|]. split; [exact Ea|]. cbn [if_evcs again_field f_evcs].
  cbn [kids_of conv_field sf_evcs] in Ek. apply map_inj in Ek; [|intros x y E; now injection E]. subst es. apply Permutation_sym in HPm. eapply Permutation_trans; [exact HPm|].
  assert (E : ics = map inj_evc (map again_evc (f_evcs f))); [|rewrite E; apply Permutation_refl]. assert (K := ff_evs _ _ HF). clear - HE K. revert ics HE. induction (f_evcs f) as [|c l IH]; intros ics HE; inversion HE as [|? ic ? ics' (e' & w' & <- & Hc) HE']; subst; [reflexivity|].
  cbn [map]. f_equal; [|apply IH; [intros; apply K; now right|exact HE']]. destruct (create_conv c _ (fb_lsb (if_b w)) (fb_msb (if_b w)) (K c (or_introl eq_refl))) as (ws & E). rewrite E in Hc. now injection Hc as _ ->.
Qed.

Inductive NamesOk : rc -> Prop :=
| NO_reg r : ~ has_placeholder (rb_name (r_b r)) -> (forall s, rb_display (r_b r) = Some s -> ~ has_placeholder s) -> (forall f, In f (r_fields r) -> ~ has_placeholder (fb_name (f_b f))) -> NamesOk (Reg r)
| NO_clu c l : ~ has_placeholder (cb_name (c_b c)) -> (forall x, In x l -> NamesOk x) -> NamesOk (Clu c l).

(** the values of the children, one each *)
Lemma outs_kids {A B} (conv : A -> parsed) (mk : B -> processed) (L : A -> B -> Prop) (N : A -> Prop) ctx sc l : forall oss,
  (forall a os, In a l -> Outs True Plainly eq ctx sc (conv a) os -> N a /\ exists b, os = [mk b] /\ L a b) ->
  Forall2 (Outs True Plainly eq ctx sc) (map conv l) oss -> (forall a, In a l -> N a) /\ exists bs, concat oss = map mk bs /\ Forall2 L l bs.
Proof.
  induction l as [|a l IH]; intros oss HK H; cbn [map] in H; inversion H as [|? os ? oss' H1 H2]; subst; [split; [intros ? []|exists []; split; [reflexivity|constructor]]|].
  destruct (HK a os (or_introl eq_refl) H1) as (Na & b & -> & Lab). destruct (IH oss' (fun a' os' Ha => HK a' os' (or_intror Ha)) H2) as (Nl & bs & E & F). split; [intros x [<-|Hx]; auto|].
  exists (b :: bs). split; [cbn; now rewrite E|now constructor].
Qed.
Lemma perm_map_inj {A B} (h : A -> B) : (forall x y, h x = h y -> x = y) -> forall l m, Permutation (map h l) (map h m) -> Permutation l m.
Proof. intros Hh l m HP. apply Permutation_map_inv in HP as (l' & E & HP). apply map_inj in E; [subst; now apply Permutation_sym|exact Hh]. Qed.
Lemma perm_forall2 {A B} (R : A -> B -> Prop) l m : Forall2 R l m -> forall m', Permutation m m' -> exists l', Permutation l l' /\ Forall2 R l' m'.
Proof.
  intros HF m' HP. revert l HF. induction HP as [|b m m' HP IH|b c m|m m1 m2 HP1 IH1 HP2 IH2]; intros l HF.
  - inversion HF; subst. exists []. split; constructor.
  - inversion HF as [|a ? l0 ? Hab HF']; subst. destruct (IH _ HF') as (l' & P & F). exists (a :: l'). split; now constructor.
  - inversion HF as [|a ? l0 ? Hab HF']; subst. inversion HF' as [|a' ? l1 ? Hab' HF'']; subst. exists (a' :: a :: l1). split; [constructor|]. repeat constructor; assumption.
  - destruct (IH1 _ HF) as (l1 & P1 & F1). destruct (IH2 _ F1) as (l2 & P2 & F2). exists l2. split; [eapply Permutation_trans; eauto|exact F2].
Qed.
Definition isize (x : irc) : option Z := op_size (match x with IReg r => ir_props r | IClu c _ => ic_props c end).
Lemma like_size y x : Like y x -> isize x = Some (p_size (el_props y)).
Proof. intros H. inversion H as [r q E1 E2 F|c l d xs l' E1 E2 P F]; subst; unfold isize; rewrite E2; reflexivity. Qed.
Lemma largest_like ctx l xs : Forall2 Like l xs -> (forall y, In y l -> machine_size (p_size (el_props y))) -> l <> [] -> largest ctx xs = largest_size l.
Proof.
  intros HF HM Hne. unfold largest, largest_size. assert (E : map (size_in ctx) xs = map (fun x => p_size (el_props x)) l).
  { clear Hne. induction HF as [|y x l xs H HF IH]; [reflexivity|]. cbn [map]. f_equal; [|apply IH; intros; apply HM; now right]. unfold size_in. change (op_size _) with (isize x). rewrite (like_size _ _ H). destruct (machine_align _ (HM y (or_introl eq_refl))) as [-> _]. reflexivity. }
  rewrite E. destruct l as [|y l]; [congruence|]. cbn [map fold_right]. assert (0 < p_size (el_props y)) by (destruct (HM y (or_introl eq_refl)) as [-> |[-> |[-> |[-> | ->]]]]; lia).
  assert (K : Z.max 0 (fold_right Z.max (-1) (map (fun x => p_size (el_props x)) l)) = fold_right Z.max 0 (map (fun x => p_size (el_props x)) l)) by (induction (map (fun x => p_size (el_props x)) l); cbn; lia). lia.
Qed.
Lemma largest_perm l l' : Permutation l l' -> largest_size l = largest_size l'.
Proof. unfold largest_size. intros HP. apply (Permutation_map (fun x => p_size (el_props x))) in HP. induction HP; cbn; lia. Qed.

Lemma Forall2_in_r {A B} (R : A -> B -> Prop) l m : Forall2 R l m -> forall b, In b m -> exists a, In a l /\ R a b.
Proof. induction 1 as [|a b l m H HF IH]; intros z Hz; [destruct Hz|]. destruct Hz as [<-|Hz]; [exists a; split; [now left|exact H]|]. destruct (IH z Hz) as (x & Hx & K). exists x. split; [now right|exact K]. Qed.
Lemma ifields_sorted fs gs : Forall2 LikeF fs gs -> StronglySorted (leP field_le) fs -> StronglySorted (leP ifield_le) gs.
Proof.
  intros HF. induction HF as [|f g fs gs L HF IH]; intros HS; [constructor|]. apply StronglySorted_inv in HS as [HS HA]. constructor; [auto|]. rewrite Forall_forall in *. intros g' Hg'.
  destruct (Forall2_in_r _ _ _ HF g' Hg') as (f' & Hf' & L'). specialize (HA f' Hf'). unfold leP, field_le, ifield_le, f_lsb, f_name in *. destruct L as [-> _], L' as [-> _]. exact HA.
Qed.
Lemma like_names fs gs : Forall2 LikeF fs gs -> map (fun g => fb_name (if_b g)) gs = map f_name fs.
Proof. induction 1 as [|f g fs gs L HF IH]; [reflexivity|]. cbn. rewrite IH. destruct L as [-> _]. reflexivity. Qed.
Lemma outs_rc y : forall b ctx sc os, Good b y -> Firm y -> Outs True Plainly eq ctx sc (PaRc (conv_rc y)) os -> NamesOk y /\ exists x, os = [PrRc x] /\ Like (again y) x.
Proof.
  induction y as [r|c l IH] using rc_ind'; intros b ctx sc os HG HF H; inversion H as [? ? ? ks vs tv ? [-> HD] HFi]; subst; apply described_single in HD as (v & -> & -> & N & N1 & HP & HA & Hd & Hd'); try reflexivity;
    inversion HFi as [|? o ? ? HFl HN]; subst; inversion HN; subst; clear HN HFi; inversion HG as [? ? G1 G2 G3 G4 G5|? ? ? G1 G2 G3 G4 G5 G6 G7]; inversion HF as [? F1 F2|? ? F1 F2]; subst.
  - destruct v as [?|[q|? ?]|?]; try contradiction. inversion HFl as [|? ? ? ? oss fs HO HPm HS| | | |]; subst.
    cbn [kids_of conv_rc conv_reg sr_fields] in HO. rewrite map_map in HO.
    destruct (outs_kids (fun f => PaFld (conv_field f)) PrFld (fun f g => LikeF (again_field f) g) (fun f => ~ has_placeholder (fb_name (f_b f))) ctx (map (fun f => PaFld (conv_field f)) (r_fields r)) (r_fields r) oss) as (Nf & gs & Ec & HL); [|exact HO|].
    { intros f os Hf Ho. exact (outs_field _ _ _ _ _ (F1 f Hf) Ho). }
    split; [constructor; [exact N|exact Hd'|exact Nf]|]. eexists. split; [reflexivity|]. rewrite Ec in HPm. apply perm_map_inj in HPm; [|intros x y E; now injection E].
    assert (HL' : Forall2 LikeF (map again_field (r_fields r)) gs) by (clear - HL; induction HL; cbn; constructor; auto).
    assert (Eg : gs = fs).
    { apply (sorted_unique ifield_le); [exact HPm| |exact HS|].
      - eapply ifields_sorted; [exact HL'|]. eapply sorted_map; [|exact F2]. reflexivity.
      - intros x y Hx Hy L1 L2. assert (E := cmp_le_antisym _ is_reg_cmp _ _ L1 L2). apply (nodup_key (fun g => fb_name (if_b g)) gs); auto; [|exact (f_equal snd E)]. rewrite (like_names _ _ HL'), map_map. apply G5. }
    subst fs. cbn [again]. constructor; cbn [ir_b ir_props ir_fields again_reg r_b r_props r_fields]; [| |exact HL'].
    + destruct HA as (A1 & A2 & A3 & A4 & A5 & A6 & A7 & _). cbn in N1, HP, Hd, A1, A2, A3, A4, A5, A6, A7. destruct q as [qb ? ? ?]. cbn in *. destruct qb, (r_b r). cbn in *. unfold inh, own_or in *. rewrite Z.add_0_r in HP.
      subst. repeat match goal with |- context [match ?o with Some _ => _ | None => None end] => destruct o end; reflexivity.
    + destruct HA as (_ & _ & _ & _ & _ & _ & _ & P1 & P2 & P3 & P4 & P5). destruct (ir_props q). cbn in *. subst. reflexivity.
  - destruct v as [?|[?|d xs0]|?]; try contradiction. assert (Hk : kids_of (PaRc (conv_rc (Clu c l))) = map (fun x => PaRc (conv_rc x)) l) by (cbn [kids_of conv_rc]; now rewrite map_map). rewrite Hk in HFl.
    assert (Hmne : map again l <> []) by (destruct l; [congruence|discriminate]).
    inversion HFl as [| |? ? ? ? ? oss xs s Hne HO HPm HS Hs|? ? ? ? Ek| |]; subst; [|exfalso; destruct l; [congruence|discriminate]].
    destruct (outs_kids (fun x => PaRc (conv_rc x)) PrRc (fun y x => Like (again y) x) NamesOk (inner ctx (op_size (ic_props d))) (map (fun x => PaRc (conv_rc x)) l) l oss) as (Nl & bs & Ec & HL); [|exact HO|].
    { intros y os Hy Ho. rewrite Forall_forall in IH. exact (IH y Hy _ _ _ _ (G4 y Hy) (F1 y Hy) Ho). }
    split; [constructor; [exact N|exact Nl]|]. eexists. split; [reflexivity|]. rewrite Ec in HPm. apply perm_map_inj in HPm; [|intros x y E; now injection E].
    assert (HL' : Forall2 Like (map again l) bs) by (clear - HL; induction HL; cbn; constructor; auto). destruct (perm_forall2 _ _ _ HL' _ HPm) as (l' & P & HLx).
    assert (HM : forall y, In y (map again l) -> machine_size (p_size (el_props y))). { intros y Hy. apply in_map_iff in Hy as (z & <- & Hz). eapply Good_machine. apply good_again; [exact (F1 z Hz)|exact (G4 z Hz)]. }
    assert (Es : s = largest_size (map again l)). { rewrite (Hs (or_introl Logic.I)). rewrite (largest_perm _ _ P). apply largest_like; [exact HLx| |].
      - intros y Hy. apply HM. eapply Permutation_in; [apply Permutation_sym, P|exact Hy].
      - intros ->. apply Permutation_sym, Permutation_nil in P. congruence. }
    subst s. cbn [again]. econstructor; cbn [ic_b ic_props c_b c_props]; [| |exact P|exact HLx].
    + destruct HA as (A1 & A2 & A3 & _). cbn in N1, HP, A1, A2, A3. destruct d as [db ? ?]. cbn in *. destruct db, (c_b c). cbn in *. unfold inh, own_or in *. rewrite Z.add_0_r in HP. subst.
      repeat match goal with |- context [match ?o with Some _ => _ | None => None end] => destruct o end; reflexivity.
    + destruct HA as (_ & _ & _ & P1 & P2 & P3 & P4 & P5). destruct (ic_props d). cbn in *. subst. reflexivity.
Qed.

Lemma blocks_same abs : (forall a, In a abs -> ab_prot a <> None) -> forall l, Forall2 SameBlock (map conv_ab abs) l -> l = abs.
Proof.
  induction abs as [|a abs IH]; intros HP l H; cbn [map] in H; inversion H as [|? b ? l' Hb H']; subst; [reflexivity|]. f_equal; [|apply IH; [intros; apply HP; now right|exact H']].
  assert (K := HP a (or_introl eq_refl)). destruct a as [o s u pr], b as [o' s' u' pr']. unfold SameBlock in Hb. cbn in Hb, K. destruct Hb as (-> & -> & -> & E). destruct pr as [pr|]; [|congruence]. cbn in E. now rewrite E.
Qed.
Lemma outs_per p : forall ctx sc os, GoodPer p -> FirmPer p -> Outs True Plainly eq ctx sc (PaPer (conv_per p)) os ->
  (~ has_placeholder (pb_name (pr_b p)) /\ forall x, In x (pr_rcs p) -> NamesOk x) /\ exists x, os = [PrPer x] /\ LikePer (again_per p) x.
Proof.
  intros ctx sc os HG HF H. inversion H as [? ? ? ks vs tv ? [-> HD] HFi]; subst. apply described_single in HD as (v & -> & -> & N & N1 & HP & HA & _ & _); [|reflexivity].
  inversion HFi as [|? o ? ? HFl HN]; subst. inversion HN; subst; clear HN HFi. destruct v as [d|?|?]; try contradiction.
  assert (Hk : kids_of (PaPer (conv_per p)) = map (fun x => PaRc (conv_rc x)) (pr_rcs p)) by (cbn [kids_of conv_per sp_rcs]; now rewrite map_map). rewrite Hk in HFl. assert (Hl := gp_ne _ HG).
  assert (Hmne : map again (pr_rcs p) <> []) by (destruct (pr_rcs p); [congruence|discriminate]).
  inversion HFl as [| | | |? ? ? ? oss xs s Hne HO HPm HS Hs|? ? ? Ek]; subst; [|exfalso; destruct (pr_rcs p); [congruence|discriminate]].
  destruct (outs_kids (fun x => PaRc (conv_rc x)) PrRc (fun y x => Like (again y) x) NamesOk (inner ctx (op_size (ip_props d))) (map (fun x => PaRc (conv_rc x)) (pr_rcs p)) (pr_rcs p) oss) as (Nl & bs & Ec & HL); [|exact HO|].
  { intros y os Hy Ho. exact (outs_rc y _ _ _ _ (gp_rcs _ HG y Hy) (fp_rcs _ HF y Hy) Ho). }
  split; [split; [exact N|exact Nl]|]. eexists. split; [reflexivity|]. rewrite Ec in HPm. apply perm_map_inj in HPm; [|intros x y E; now injection E].
  assert (HL' : Forall2 Like (map again (pr_rcs p)) bs) by (clear - HL; induction HL; cbn; constructor; auto). destruct (perm_forall2 _ _ _ HL' _ HPm) as (l' & P & HLx).
  assert (HM : forall y, In y (map again (pr_rcs p)) -> machine_size (p_size (el_props y))). { intros y Hy. apply in_map_iff in Hy as (z & <- & Hz). eapply Good_machine. apply good_again; [exact (fp_rcs _ HF z Hz)|exact (gp_rcs _ HG z Hz)]. }
  assert (Es : s = largest_size (map again (pr_rcs p))). { rewrite (Hs (or_introl Logic.I)). rewrite (largest_perm _ _ P). apply largest_like; [exact HLx| |].
    - intros y Hy. apply HM. eapply Permutation_in; [apply Permutation_sym, P|exact Hy].
    - intros ->. apply Permutation_sym, Permutation_nil in P. congruence. }
  subst s. unfold LikePer. cbn [again_per ip_b ip_props ip_rcs pr_b pr_props pr_rcs]. destruct HA as (A1 & A2 & A3 & A4 & A5 & A6 & A7 & A8 & _ & A9 & A10 & P1 & P2 & P3 & P4 & P5). split; [|split].
  - assert (EA : pb_abs (ip_b d) = pb_abs (pr_b p)).
    { cbn [conv_per sp_abs] in A9. destruct A9 as (l & F & Li); [assert (K := gp_abs _ HG); destruct (pb_abs (pr_b p)); [congruence|discriminate]|]. apply blocks_same in F; [|exact (fp_prot _ HF)]. subst l. exact (listed_sorted ab_offset _ (fp_abs _ HF) _ Li). }
    assert (EI : pb_ints (ip_b d) = pb_ints (pr_b p)) by exact (listed_sorted int_value _ (fp_ints _ HF) _ A10).
    clear A9 A10. cbn in N1, HP, A1, A2, A3, A4, A5, A6, A7, A8. destruct d as [db ? ? ?]. cbn in *. destruct db, (pr_b p). cbn in *. unfold inh, own_or in *. rewrite Z.add_0_r in HP. subst.
    repeat match goal with |- context [match ?o with Some _ => _ | None => None end] => destruct o end; reflexivity.
  - destruct (ip_props d). cbn in *. subst. reflexivity.
  - exists l'. split; [exact P|exact HLx].
Qed.

(** ** The whole device *)
Lemma base_again d : process_device_base (conv_device (mk_dev (process_device_base d) [])) = process_device_base d.
Proof.
  unfold process_device_base, conv_device. cbn. f_equal. destruct (sdv_cpu d) as [c|]; [|reflexivity]. cbn. f_equal. unfold process_cpu, conv_cpu. cbn. f_equal; [destruct (scpu_name c); reflexivity|].
  destruct (scpu_sau c) as [s|]; [|reflexivity]. cbn. f_equal. unfold process_sau_config, conv_sau_config. cbn. f_equal. rewrite !map_map. apply map_ext. intros r. reflexivity.
Qed.
Lemma device_base d ws dev : Processes d ws dev -> process_device_base (conv_device dev) = dv_b dev.
Proof.
  intros H. destruct (processes_inv _ _ _ H) as (i & w1 & w2 & HR & Hfin & E). apply finalize_good in Hfin as [_ Eb]. destruct HR as (fuel & ps & _ & ->). cbn in Eb. destruct dev as [b l]. cbn [dv_b] in *. subst b. exact (base_again d).
Qed.
Lemma plain_like dev l : FirmDev dev -> PlainExpansion (map conv_per (dv_periphs dev)) l ->
  (forall p, In p (dv_periphs dev) -> ~ has_placeholder (pb_name (pr_b p)) /\ forall x, In x (pr_rcs p) -> NamesOk x) /\ forall b, LikeDev (mk_dev b (dv_periphs (again_dev dev))) (mk_idev b l).
Proof.
  intros HF (oss & HO & HP & _). rewrite map_map in HO.
  destruct (outs_kids (fun p => PaPer (conv_per p)) PrPer (fun p x => LikePer (again_per p) x) (fun p => ~ has_placeholder (pb_name (pr_b p)) /\ forall x, In x (pr_rcs p) -> NamesOk x) 32 (map (fun p => PaPer (conv_per p)) (dv_periphs dev)) (dv_periphs dev) oss) as (Nl & bs & Ec & HL); [|exact HO|].
  { intros p os Hp Ho. exact (outs_per p _ _ _ (gd_pers _ (fd_good _ HF) p Hp) (fd_pers _ HF p Hp) Ho). }
  split; [exact Nl|]. intros b. split; [reflexivity|]. cbn [dv_periphs idv_periphs again_dev]. rewrite Ec in HP. apply perm_map_inj in HP; [|intros x y E; now injection E].
  assert (HL' : Forall2 LikePer (map again_per (dv_periphs dev)) bs) by (clear - HL; induction HL; cbn; constructor; auto). exact (perm_forall2 _ _ _ HL' _ HP).
Qed.

Lemma declared_conv l x : DeclaredRc (map conv_rc l) x -> exists o y, Below l o y /\ x = conv_rc y.
Proof.
  intros H. remember (map conv_rc l) as m eqn:E. revert l E. induction H as [m x Hin|m c ch x Hin H IH]; intros l ->; apply in_map_iff in Hin as (y & Ey & Hy).
  - subst x. destruct y as [r|c ch]; [exists (rb_offset (r_b r)), (Reg r)|exists (cb_offset (c_b c)), (Clu c ch)]; (split; [now constructor|reflexivity]).
  - destruct y as [r|d ys]; cbn [conv_rc] in Ey; [discriminate|]. injection Ey as _ <-. destruct (IH ys eq_refl) as (o & z & Hb & ->). exists (cb_offset (c_b d) + o), z. split; [econstructor; eauto|reflexivity].
Qed.
Lemma below_ind (P : rc -> Prop) l o x : (forall c ch y, P (Clu c ch) -> In y ch -> P y) -> (forall y, In y l -> P y) -> Below l o x -> P x.
Proof.
  intros HC HL H. revert HL. induction H as [l r Hin|l c ch Hin|l c ch o x Hin HB IH]; intros HL; auto. apply IH. intros y Hy. eapply HC; [apply HL; exact Hin|exact Hy].
Qed.
Lemma names_below l o x : (forall y, In y l -> NamesOk y) -> Below l o x -> NamesOk x.
Proof. apply below_ind. intros c ch y H Hy. inversion H; subst; auto. Qed.
Lemma firm_in l o x : (forall y, In y l -> Firm y) -> Below l o x -> Firm x.
Proof. apply below_ind. intros c ch y H Hy. inversion H; subst; auto. Qed.
Lemma names_intro l : (forall o x, Below l o x -> ~ has_placeholder (el_name x)) -> (forall o r s, Below l o (Reg r) -> rb_display (r_b r) = Some s -> ~ has_placeholder s) ->
  (forall o r f, Below l o (Reg r) -> In f (r_fields r) -> ~ has_placeholder (fb_name (f_b f))) -> forall y, In y l -> NamesOk y.
Proof.
  intros H1 H2 H3 y. revert l H1 H2 H3. induction y as [r|c ch IH] using rc_ind'; intros l H1 H2 H3 Hy.
  - assert (Hb : Below l (rb_offset (r_b r)) (Reg r)) by now constructor. constructor; [exact (H1 _ _ Hb)|intros s; exact (H2 _ _ s Hb)|intros f; exact (H3 _ _ f Hb)].
  - assert (Hb : Below l (cb_offset (c_b c)) (Clu c ch)) by now constructor. constructor; [exact (H1 _ _ Hb)|]. rewrite Forall_forall in IH. intros x Hx. apply (IH x Hx ch); [| | |exact Hx]; intros o; intros.
    + eapply H1. eapply Below_deep; eauto.
    + eapply H2; eauto. eapply Below_deep; eauto.
    + eapply H3; eauto. eapply Below_deep; eauto.
Qed.
Lemma rereadable_iff dev : Rereadable dev <-> dv_periphs dev <> [] /\ forall p, In p (dv_periphs dev) -> ~ has_placeholder (pb_name (pr_b p)) /\ forall x, In x (pr_rcs p) -> NamesOk x.
Proof.
  split.
  - intros [R1 R2 R3 R4 R5]. split; [exact R1|]. intros p Hp. split; [now apply R2|]. apply names_intro; intros; eauto.
  - intros [R1 R2]. constructor; [exact R1|intros p Hp; now apply R2| | |].
    + intros p o x Hp Hb. assert (K := names_below _ _ _ (proj2 (R2 p Hp)) Hb). inversion K; subst; assumption.
    + intros p o r s Hp Hb. assert (K := names_below _ _ _ (proj2 (R2 p Hp)) Hb). inversion K; subst; auto.
    + intros p o r f Hp Hb. assert (K := names_below _ _ _ (proj2 (R2 p Hp)) Hb). inversion K; subst; auto.
Qed.

Lemma no_derivation_conv dev : no_derivation (conv_device dev).
Proof.
  assert (K : forall p x, In p (sdv_periphs (conv_device dev)) -> DeclaredRc (sp_rcs p) x -> exists y, x = conv_rc y).
  { intros p x Hp Hx. cbn [conv_device sdv_periphs] in Hp. apply in_map_iff in Hp as (q & <- & _). cbn [conv_per sp_rcs] in Hx. apply declared_conv in Hx as (o & y & _ & ->). eauto. }
  assert (KF : forall f, DeclaredField (sdv_periphs (conv_device dev)) f -> exists g, f = conv_field g).
  { intros f (p & r & Hp & Hr & Hf). destruct (K _ _ Hp Hr) as ([q|? ?] & E); [|discriminate]. cbn in E. injection E as ->. cbn in Hf. apply in_map_iff in Hf as (g & <- & _). eauto. }
  repeat apply conj.
  - intros p Hp. cbn [conv_device sdv_periphs] in Hp. apply in_map_iff in Hp as (q & <- & _). reflexivity.
  - intros p c l Hp Hc. destruct (K _ _ Hp Hc) as ([q|q ?] & E); [discriminate|]. cbn in E. injection E as -> _. reflexivity.
  - intros p r Hp Hr. destruct (K _ _ Hp Hr) as ([q|q ?] & E); [|discriminate]. cbn in E. injection E as ->. reflexivity.
  - intros f Hf. destruct (KF f Hf) as (g & ->). reflexivity.
  - intros e (f & Hf & He). destruct (KF f Hf) as (g & ->). cbn in He. apply in_map_iff in He as (c & <- & _). reflexivity.
Qed.

Lemma field_rules rwc f : FirmField rwc f -> FieldRules (conv_field f).
Proof.
  intros HF. exists (f_msb f), (f_lsb f). split; [|split].
  - apply Bits_pair; [reflexivity|]. split; [left; discriminate|]. auto.
  - unfold UsageRules. cbn [conv_field sf_evcs]. rewrite map_map, map_length. cbn [conv_evc sevc_usage]. assert (U := ff_us _ _ HF). destruct (f_evcs f) as [|c1 [|c2 [|c3 l]]]; [left; cbn; lia|left; cbn; lia| |].
    + right. destruct U as [U|[[u U]|[U|U]]]; cbn in U; try discriminate; injection U as E1 E2; cbn; rewrite E1, E2; auto.
    + destruct U as [U|[[u U]|[U|U]]]; cbn in U; discriminate.
  - intros e He. cbn [conv_field sf_evcs] in He. apply in_map_iff in He as (c & <- & Hc). destruct (ff_evs _ _ HF c Hc) as [_ HV]. split; [|left].
    + intros v Hv. cbn [conv_evc sevc_evs] in Hv. apply in_map_iff in Hv as (u & <- & Hu). right. eexists. split; [reflexivity|]. apply VT_dec, digits_str. apply (HV u Hu).
    + intros v Hv. cbn [conv_evc sevc_evs] in Hv. apply in_map_iff in Hv as (u & <- & Hu). discriminate.
Qed.
Lemma machine_nn s : machine_size s -> 0 <= s.
Proof. intros [-> |[-> |[-> |[-> | ->]]]]; lia. Qed.
Lemma conv_rules dev : FirmDev dev -> Rereadable dev -> ElementRules (sdv_periphs (conv_device dev)).
Proof.
  intros HF HR. apply rereadable_iff in HR as [R1 R2]. cbn [conv_device sdv_periphs]. split; [destruct (dv_periphs dev); [congruence|discriminate]|].
  assert (K : forall p x, In p (map conv_per (dv_periphs dev)) -> DeclaredRc (sp_rcs p) x -> exists y, x = conv_rc y /\ NamesOk y /\ Firm y /\ machine_size (p_size (el_props y))).
  { intros p x Hp Hx. apply in_map_iff in Hp as (q & <- & Hq). cbn [conv_per sp_rcs] in Hx. apply declared_conv in Hx as (o & y & Hb & ->). exists y. split; [reflexivity|]. split; [eapply names_below; [apply (R2 q Hq)|exact Hb]|]. split; [eapply firm_in; [apply (fp_rcs _ (fd_pers _ HF q Hq))|exact Hb]|].
    destruct (per_below _ _ _ _ (fd_good _ HF) Hq Hb) as (b & Hg & _). eapply Good_machine; eauto. }
  intros e He Hl. destruct e as [|p|x|f|e]; cbn [Declared] in He; [destruct He| | | |cbn in Hl; congruence].
  - apply in_map_iff in He as (q & <- & Hq). split; [|split].
    + left. split; [apply (R2 q Hq)|discriminate].
    + intros s E. injection E as <-. apply (fp_size _ (fd_pers _ HF q Hq)).
    + discriminate.
  - destruct He as (p & Hp & Hx). destruct (K _ _ Hp Hx) as (y & -> & Ny & Fy & My). split; [|split; [|discriminate]].
    + left. destruct Ny as [r N1 N2 N3|c l N1 N2]; (split; [exact N1|]); [exact N2|discriminate].
    + intros s E. apply machine_nn in My. destruct y; injection E as <-; exact My.
  - destruct He as (p & r & Hp & Hr & Hf). destruct (K _ _ Hp Hr) as ([q|? ?] & E & Ny & Fy & _); [|discriminate]. cbn in E. injection E as ->. cbn [conv_reg sr_fields] in Hf. apply in_map_iff in Hf as (g & <- & Hg).
    inversion Ny as [? N1 N2 N3|]; subst. inversion Fy as [? F1 F2|]; subst. split; [|split; [discriminate|]].
    + left. split; [exact (N3 g Hg)|discriminate].
    + intros f E. injection E as <-. exact (field_rules _ _ (F1 g Hg)).
Qed.

Theorem again_iff d ws dev : Processes d ws dev -> forall dev', (exists ws', Processes (conv_device dev) ws' dev') <-> Rereadable dev /\ dev' = again_dev dev.
Proof.
  intros H dev'. assert (HF := processes_firm _ _ _ H). assert (HF' := firm_dev_again _ HF). assert (Eb := device_base _ _ _ H). split.
  - intros (ws' & H'). destruct (processes_inv _ _ _ H') as (i & w1 & w2 & HR & Hfin & _). assert (N := no_derivation_conv dev).
    assert (HE : idv_b i = process_device_base (conv_device dev) /\ PlainExpansion (sdv_periphs (conv_device dev)) (idv_periphs i)).
    { destruct N as (N1 & N2 & N3 & N4 & N5). destruct (resolves_expansion (conv_device dev) w1 i (no_derived_clusters_plain _ N2) HR) as [X1 X2]. split; [exact X1|]. apply plain_expansion; [apply und_of; repeat apply conj; assumption|exact X2]. }
    destruct HE as [E1 HE]. cbn [conv_device sdv_periphs] in HE. destruct (plain_like dev _ HF HE) as [HN HL]. split.
    + apply rereadable_iff. split; [|exact HN]. intros E0. destruct HR as (fuel & l & HR & _). cbn [conv_device sdv_periphs] in HR. rewrite E0 in HR. cbn [map] in HR. destruct fuel as [|[|fuel]]; vm_compute in HR; discriminate.
    + specialize (HL (dv_b dev)). replace (mk_idev (dv_b dev) (idv_periphs i)) with i in HL by (destruct i; cbn in *; congruence).
      destruct (finalize_like (again_dev dev) i HF' HL) as (w & E). rewrite Hfin in E. now injection E as _ ->.
  - intros [HR ->]. destruct (C49_resolved _ (no_derivation_conv dev) (conv_rules _ HF HR)) as (w & i & HRs & E1 & HE). cbn [conv_device sdv_periphs] in HE. destruct (plain_like dev _ HF HE) as [_ HL].
    specialize (HL (dv_b dev)). replace (mk_idev (dv_b dev) (idv_periphs i)) with i in HL by (destruct i; cbn in *; congruence).
    destruct (finalize_like (again_dev dev) i HF' HL) as (w2 & E). destruct (resolves_process _ _ _ HRs) as (fuel & EP). rewrite E in EP. eexists. exists fuel. exact EP.
Qed.
