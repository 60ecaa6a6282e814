(** * AgainFacts: processing the description of a processed device (C31). *)
From Verif Require Import Base PyStr PyInt Types DimModel EnumModel ElemModel FinalModel ConvertModel ResolveModel ProcessModel SpecProcess SpecDim SpecElem SpecEnum SpecDevice SpecImage SpecDeclared SpecExpand SpecAccept SpecAgain.
From Verif Require Import TextFacts DimFacts EnumFacts EnumFacts2 EnumFacts3 FinalFacts ElemFacts ImageFacts EffectFacts ResolveInv DescribeFacts BuildOk AcceptFacts FinalAccept PropsDim PropsElem PropsEnum PropsDevice PropsResolve PropsExpand PropsAccept.
From Coq Require Import ZifyBool ZifyNat ZifyN.

(** ** What is known of every processed device *)
Definition inj_ev (v : ev) : iev := mk_iev (ev_name v) (ev_descr v) (Some (ev_value v)) false.
Definition inj_evc (c : evc) : ievc := mk_ievc (evc_name c) (evc_header c) (evc_usage c) (map inj_ev (evc_evs c)).
Definition TidyEvs (w : Z) (c : evc) : Prop :=
  StronglySorted Z.lt (map ev_value (evc_evs c)) /\ forall v, In v (evc_evs c) -> 0 <= ev_value v <= 2 ^ w - 1 /\ is_reserved (ev_name v) = false.
Record FirmField (rwc : option write_constraint) (f : field) : Prop := {
  ff_wc : fb_wc (f_b f) = None -> rwc = None;
  ff_us : usages_ok (map evc_usage (f_evcs f));
  ff_evs : forall c, In c (f_evcs f) -> TidyEvs (f_msb f - f_lsb f + 1) c }.
Definition field_le (f g : field) : bool := zs_le (f_lsb f, f_name f) (f_lsb g, f_name g).
(** the header of an element, for the rules about siblings *)
Definition inj_rc (y : rc) : irc :=
  match y with
  | Reg r => IReg (mk_ireg (r_b r) none_dim (conv_props (r_props r)) [])
  | Clu c _ => IClu (mk_iclu (c_b c) none_dim (conv_props (c_props c))) []
  end.
Definition AltOk (l : list rc) : Prop := SiblingsFine (map inj_rc l).
Inductive Firm : rc -> Prop :=
| Firm_reg r : (forall f, In f (r_fields r) -> FirmField (rb_wc (r_b r)) f) -> StronglySorted (leP field_le) (r_fields r) -> Firm (Reg r)
| Firm_clu c l : (forall x, In x l -> Firm x) -> AltOk l -> Firm (Clu c l).
Record FirmPer (p : per) : Prop := {
  fp_rcs : forall x, In x (pr_rcs p) -> Firm x;
  fp_alt : AltOk (pr_rcs p);
  fp_abs : sorted_by ab_offset (pb_abs (pr_b p));
  fp_prot : forall a, In a (pb_abs (pr_b p)) -> ab_prot a <> None;
  fp_ints : sorted_by int_value (pb_ints (pr_b p));
  fp_size : 0 <= p_size (pr_props p) }.

(** *** siblings *)
Lemma inj_same y : same (inj_rc y) y.
Proof.
  destruct y as [r|c l]; cbn; split; auto.
Qed.
Lemma inj_sames l : Forall2 same (map inj_rc l) l.
Proof. induction l; constructor; auto using inj_same. Qed.
Lemma fine_perm l l' : Permutation l l' -> SiblingsFine l -> SiblingsFine l'.
Proof.
  intros HP [H1 H2]. split.
  - eapply Permutation_NoDup; [apply Permutation_map, HP|exact H1].
  - intros c ch a Hin Ha. assert (K := H2 c ch a (Permutation_in _ (Permutation_sym HP) Hin) Ha). unfold cluster_names in *. rewrite in_flat_map in *. destruct K as (x & Hx & K). exists x. split; [eapply Permutation_in; eauto|exact K].
Qed.
Lemma alt_perm l l' : Permutation l l' -> AltOk l -> AltOk l'.
Proof. intros HP. apply fine_perm, Permutation_map, HP. Qed.
Lemma fin_rcs_alt f l ws s : fin_rcs f l = (ws, Ok s) -> AltOk s.
Proof.
  intros H. apply fin_rcs_ok in H as (ys & w1 & w2 & HL & Hn & -> & Hc & _). apply (alt_perm ys); [apply isort_perm|].
  apply (overlaps_fine (map inj_rc ys) ys (isort rc_le ys)); [apply inj_sames|exact Hn|apply isort_perm|]. eexists; eexists; exact Hc.
Qed.

Inductive AltDeep : rc -> Prop :=
| AD_reg r : AltDeep (Reg r)
| AD_clu c l : (forall x, In x l -> AltDeep x) -> AltOk l -> AltDeep (Clu c l).
Lemma fin_rc_alt x : forall base ws y, fin_rc x base = (ws, Ok (Some y)) -> AltDeep y.
Proof.
  induction x as [r|c l IH] using irc_ind'; intros base ws y H; apply fin_rc_ok in H as (s & Hs & [(_ & H & _)|(Hms & w & _ & H)]); try discriminate.
  - destruct H as [(_ & H & _)|(Hr & Halt & fs & p & Hf & Hp & Hps & H)]; [discriminate|]. injection H as ->. constructor.
  - destruct H as (ch & w1 & Hch & [(_ & H & _)|(Hne & _ & p & Hp & Hps & H)]); [discriminate|]. cbn zeta in H. injection H as ->.
    assert (HA := fin_rcs_alt _ _ _ _ Hch). apply fin_rcs_ok in Hch as (ys & w2 & w3 & HL & Hn & -> & _ & _). constructor; [|exact HA].
    intros z Hz. apply isort_in in Hz. destruct (Loop_in _ _ _ _ HL z Hz) as (x & w4 & Hx & Hfx). rewrite Forall_forall in IH. eapply IH; eauto.
Qed.
Lemma fin_per_alt p ws q : fin_per p = (ws, Ok (Some q)) -> AltOk (pr_rcs q) /\ forall x, In x (pr_rcs q) -> AltDeep x.
Proof.
  intros H. apply fin_per_ok in H as (rcs & w1 & w2 & H1 & -> & [(_ & H & _)|(Hne & [(s & _ & _ & H & _)|(pp & _ & _ & _ & H)])]); try discriminate. cbn zeta in H. injection H as ->. cbn [pr_rcs].
  split; [eapply fin_rcs_alt; eauto|]. apply fin_rcs_ok in H1 as (ys & w3 & w4 & HL & Hn & -> & _ & _). intros z Hz. apply isort_in in Hz. destruct (Loop_in _ _ _ _ HL z Hz) as (x & w5 & Hx & Hfx). eapply fin_rc_alt; eauto.
Qed.
Definition PersAlt (l : list per) : Prop := forall p a, In p l -> pb_altper (pr_b p) = Some a -> In a (map per_name l).
Lemma finalize_alt i ws dev : finalize i = (ws, Ok dev) -> PersAlt (dv_periphs dev) /\ forall p, In p (dv_periphs dev) -> AltOk (pr_rcs p) /\ forall x, In x (pr_rcs p) -> AltDeep x.
Proof.
  intros H. unfold finalize in H. apply bind_ok in H as (w1 & s & w2 & H & E & _). apply ret_ok in E as [<- _]. cbn [dv_periphs].
  apply fin_pers_ok in H as (ys & w3 & w4 & HL & Hn & -> & Hc & _). split.
  - assert (K : ok (check_per_overlaps (map (fun p => (per_name p, pb_altper (pr_b p))) ys) [] [] (isort per_le ys))) by (eexists; eexists; exact Hc). rewrite check_per_ok_iff in K.
    intros p a Hp Ha. apply isort_in in Hp. assert (X := proj1 (strict_ok_iff per_name (fun p => pb_altper (pr_b p)) ys Hn)).
    assert (Y : In a (map per_name ys)). { refine (X _ p a Hp Ha). intros q Hq. apply K. now apply isort_in. }
    apply in_map_iff in Y as (q & <- & Hq). apply in_map. now apply isort_in.
  - intros p Hp. apply isort_in in Hp. destruct (PLoop_in _ _ _ HL p Hp) as (x & w & _ & Hx). eapply fin_per_alt; eauto.
Qed.

(** *** enumerated values *)
Lemma reserved_underscore a b : is_reserved (a ++ "_" ++ b) = false.
Proof.
  destruct (is_reserved (a ++ "_" ++ b)) eqn:E; [|reflexivity]. exfalso. apply is_reserved_spec in E. rewrite !lower_app in E.
  assert (K : sforallb (fun c => negb (Ascii.eqb c "_")) "reserved" = true) by reflexivity. rewrite <- E in K. rewrite !sforallb_app in K. cbn in K. rewrite andb_false_r in K. discriminate.
Qed.
Lemma created_names ps lsb msb ws vs : process_enumerated_values ps lsb msb = (ws, Ok vs) -> forall v, In v vs -> is_reserved (iev_name v) = false.
Proof.
  intros H. apply pev_inv in H as (w0 & st & acc & HL & HV & _ & HC). destruct (process_evs_loop_ok _ _ _ _ _ VInv_init HL) as (_ & HF & _). cbn [snd app] in HF.
  assert (HA : forall v, In v acc -> is_reserved (iev_name v) = false).
  { intros v Hv. destruct (HF v Hv) as (q & w & us & u & _ & Hu & Hin & ->). apply resolve_wildcard_ok in Hu as [R1 R2]. assert (Hq : is_reserved (sev_name q) = false) by (destruct (is_reserved (sev_name q)); [rewrite (R1 eq_refl) in Hin; destruct Hin|reflexivity]).
    destruct (R2 u Hin) as (_ & _ & K). assert (E : iev_name (reset_default u) = iev_name u) by (unfold reset_default; destruct (iev_default u); reflexivity). rewrite E.
    destruct (iev_value u) as [z|]; [destruct K as (t & ? & ? & _ & _ & _ & _ & ->)|destruct K as [-> _]; exact Hq]. unfold wildcard_name. destruct (contains _ _); [apply reserved_underscore|exact Hq]. }
  destruct HC as [(_ & HP & _)|(d & r & Hd & HE & HP & _)]; intros v Hv.
  - apply HA. eapply Permutation_in; [apply Permutation_sym, HP|exact Hv].
  - apply (Permutation_in _ (Permutation_sym HP)) in Hv. apply extend_ok in HE as (_ & _ & K & _); [|apply HV|intros u Hu Hd'; apply (vi_default _ _ HV u Hu Hd')]. apply K in Hv as [[Hv _]|(z & _ & _ & ->)]; [now apply HA|]. cbn [iev_name]. apply reserved_underscore.
Qed.
Lemma device_evs d ws dev p o r f c : Processes d ws dev -> In p (dv_periphs dev) -> Below (pr_rcs p) o (Reg r) -> In f (r_fields r) -> In c (f_evcs f) -> TidyEvs (f_msb f - f_lsb f + 1) c.
Proof.
  intros H Hp Hb Hf Hc. destruct (C02_device_values _ _ _ H _ _ _ _ _ Hp Hb Hf Hc) as (H1 & _ & H2). split; [exact H1|]. intros v Hv. split.
  - destruct (processes_good _ _ _ H) as [G _]. destruct (per_below _ _ _ _ G Hp Hb) as (b & Hg & _). inversion Hg as [? ? _ _ _ _ (_ & _ & _ & HF)|]; subst. rewrite Forall_forall in HF. destruct (HF f Hf) as (_ & _ & <- & _). now apply H2.
  - destruct (device_fields _ _ _ _ _ _ _ H Hp Hb Hf) as [_ HD]. destruct (HD c Hc) as (e & ic & w & w' & _ & He & Hw' & _). unfold create_evc in He. apply bind_ok in He as (w1 & vs & w2 & He & Er & _). apply ret_ok in Er as [<- _]. cbn [ievc_evs] in Hw'.
    apply fin_enum_values_ok in Hw' as (E & _). rewrite E in Hv. apply in_map_iff in Hv as (u & <- & Hu). apply filter_In in Hu as [Hu _]. cbn [ev_name]. exact (created_names _ _ _ _ _ He u Hu).
Qed.

(** *** fields *)
Lemma align_sorted ws accs rwc l gs : FieldsAlign ws accs rwc l gs -> StronglySorted (leP ifield_le) l -> StronglySorted (leP field_le) gs.
Proof.
  induction 1 as [|f g l r HI Hn HA IH|f l r Hn Hw HA IH]; intros HS; [constructor| |]; apply StronglySorted_inv in HS as [HS HF]; [|now apply IH]. constructor; [now apply IH|].
  apply Forall_forall. intros g' Hg'. destruct (FieldsAlign_in _ _ _ _ _ HA g' Hg') as (f' & Hf' & HI'). rewrite Forall_forall in HF. specialize (HF f' Hf').
  unfold leP, field_le, ifield_le, f_lsb, f_name in *. rewrite (fi_lsb _ _ _ _ _ HI), (fi_name _ _ _ _ _ HI), (fi_lsb _ _ _ _ _ HI'), (fi_name _ _ _ _ _ HI'). exact HF.
Qed.
Lemma zs_le_fst a b : zs_le a b = true -> fst a <= fst b.
Proof. unfold zs_le, cmp_le, pair_cmp. destruct (Z.compare_spec (fst a) (fst b)); intros; try lia; discriminate. Qed.
Lemma device_regs d ws dev p o r : Processes d ws dev -> In p (dv_periphs dev) -> Below (pr_rcs p) o (Reg r) ->
  StronglySorted (leP field_le) (r_fields r) /\ forall f, In f (r_fields r) -> fb_wc (f_b f) = None -> rb_wc (r_b r) = None.
Proof.
  intros H Hp Hb. destruct (processes_inv _ _ _ H) as (i & w1 & w2 & HR & Hfin & ->). assert (HO := resolves_ok _ _ _ HR).
  apply finalize_image in Hfin. destruct Hfin as (_ & ys & HA & HP).
  destruct (PersAlign_in _ _ _ _ HA p) as (ip & Hip & HI). { eapply Permutation_in; [symmetry; exact HP|exact Hp]. }
  inversion HI as [? ? zs _ _ HAl HPz]; subst. destruct (below_pbelow _ _ _ Hb) as (path & Hpb).
  destruct (image_path _ _ _ _ _ _ _ HAl HPz Hpb) as (encl & x & HIB & HIm).
  assert (Hx := RcOk_below _ _ _ _ _ HIB (proj2 (proj2 (proj2 (proj2 (HO _ Hip)))))).
  inversion HIm as [? q q' gs Hb' _ _ HFA HPg|]; subst. inversion Hx as [? _ Hs|]; subst.
  assert (HS := align_sorted _ _ _ _ _ HFA Hs). assert (E : r_fields r = gs).
  { apply (listed_sorted (fun g => fb_lsb (f_b g))); [|exact HPg]. eapply StronglySorted_impl; [|exact HS]. intros a b Hab. exact (zs_le_fst _ _ Hab). }
  rewrite E. split; [exact HS|]. intros f Hf Hwc. destruct (FieldsAlign_in _ _ _ _ _ HFA f Hf) as (g & Hg & HFI). assert (K := fi_wc _ _ _ _ _ HFI). rewrite Hwc in K. cbn in K. rewrite Hb'. destruct (fb_wc (if_b g)); [discriminate|]. destruct (rb_wc (ir_b q)); [discriminate|reflexivity].
Qed.

(** *** all together *)
Lemma firm_below l : (forall y, In y l -> AltDeep y) -> (forall o r, Below l o (Reg r) -> Firm (Reg r)) -> forall y, In y l -> Firm y.
Proof.
  intros HA HB y. revert l HA HB. induction y as [r|c ch IH] using rc_ind'; intros l HA HB Hy; [apply (HB (rb_offset (r_b r))); now constructor|].
  assert (K := HA _ Hy). inversion K as [|? ? K1 K2]; subst. rewrite Forall_forall in IH. constructor; [|exact K2]. intros x Hx. apply (IH x Hx ch); auto. intros o r Hr. apply (HB (cb_offset (c_b c) + o)). econstructor 3; eauto.
Qed.
Record FirmDev (dev : device) : Prop := {
  fd_pers : forall p, In p (dv_periphs dev) -> FirmPer p;
  fd_alt : PersAlt (dv_periphs dev);
  fd_good : GoodDev dev }.
Lemma processes_firm d ws dev : Processes d ws dev -> FirmDev dev.
Proof.
  intros H. constructor.
  - intros p Hp. destruct (processes_inv _ _ _ H) as (i & w1 & w2 & HR & Hfin & E). assert (HO := resolves_ok _ _ _ HR). destruct (finalize_alt _ _ _ Hfin) as [_ K]. destruct (K p Hp) as [K1 K2].
    apply finalize_image in Hfin. destruct Hfin as (_ & ys & HA & HP). destruct (PersAlign_in _ _ _ _ HA p) as (ip & Hip & HI). { eapply Permutation_in; [symmetry; exact HP|exact Hp]. }
    inversion HI as [? ? zs Eb En HAl HPz]; subst. destruct (HO ip Hip) as (O1 & O2 & O3 & O4 & _). constructor; rewrite ?Eb; auto.
    2: { destruct O4 as (s & Es & Hs). { intros E0. rewrite E0 in HAl. inversion HAl; subst. apply Permutation_nil in HPz. destruct (processes_good _ _ _ H) as [G _]. exact (gp_ne _ (gd_pers _ G p Hp) HPz). }
         destruct En as (En & _). cbn [map] in En. rewrite Es in En. cbn in En. injection En as <-. exact Hs. }
    apply firm_below; [exact K2|]. intros o r Hr. destruct (device_regs _ _ _ _ _ _ H Hp Hr) as [R1 R2]. constructor; [|exact R1]. intros f Hf. constructor; [now apply R2| |].
    + exact (proj1 (device_fields _ _ _ _ _ _ _ H Hp Hr Hf)).
    + intros c Hc. exact (device_evs _ _ _ _ _ _ _ _ H Hp Hr Hf Hc).
  - destruct (processes_inv _ _ _ H) as (i & w1 & w2 & HR & Hfin & E). exact (proj1 (finalize_alt _ _ _ Hfin)).
  - exact (proj1 (processes_good _ _ _ H)).
Qed.

(** ** Enumerated values, again *)
Lemma convert_dec z : 0 <= z -> convert_enumerated_value (str_of_Z z) = ([], Ok [z]).
Proof.
  intros Hz. assert (Hs := digits_str z Hz). set (s := str_of_Z z) in *.
  assert (Hl : lower s = s). { destruct Hs as [_ Hs]. clearbody s. induction s as [|c s IH]; [reflexivity|]. cbn in Hs. apply andb_prop in Hs as [Hc Hs]. unfold lower in *. cbn. rewrite (IH Hs). f_equal. unfold lower_char.
      destruct (is_upper c) eqn:Eu; [apply upper_not_digit in Eu; congruence|reflexivity]. }
  unfold convert_enumerated_value. rewrite Hl. rewrite replace_none by (apply no_hash; destruct Hs as [_ Hs]; apply (sforallb_impl is_digit); [intros c Hc; destruct (Ascii.eqb c "#") eqn:E; [apply Ascii.eqb_eq in E; subst; discriminate|reflexivity]|exact Hs]).
  assert (Hd : forall c r, In c ["b"; "x"]%char -> s <> ("0" ++ String c r)%string). { intros c r Hc E. rewrite E in Hs. destruct Hs as [_ Hs]. cbn in Hs. destruct Hc as [<-|[<-|[]]]; discriminate. }
  assert (H1 : startswith "0b" s = false). { destruct (startswith "0b" s) eqn:E; [|reflexivity]. apply startswith_spec in E as (r & E). destruct (Hd "b"%char r); [now left|exact E]. }
  assert (H2 : startswith "0x" s = false). { destruct (startswith "0x" s) eqn:E; [|reflexivity]. apply startswith_spec in E as (r & E). destruct (Hd "x"%char r); [right; now left|exact E]. }
  rewrite H1, H2. assert (H3 : isdigit s = true). { unfold isdigit. destruct Hs as [Hne Hs]. destruct s; [congruence|exact Hs]. } rewrite H3. unfold s. rewrite py_int_str by now left. reflexivity.
Qed.
Lemma wildcard_dec name z : 0 <= z -> wildcard_name name (str_of_Z z) z = name.
Proof.
  intros Hz. assert (Hs := digits_str z Hz). set (s := str_of_Z z) in *.
  assert (Hx : forall t, sforallb is_digit t = true -> lower t = t /\ contains "x" t = false).
  { intros t Ht. split.
    - induction t as [|c t IH]; [reflexivity|]. cbn in Ht. apply andb_prop in Ht as [Hc Ht]. unfold lower in *. cbn. rewrite (IH Ht). f_equal. unfold lower_char. destruct (is_upper c) eqn:Eu; [apply upper_not_digit in Eu; congruence|reflexivity].
    - apply not_contains. intros (a & b & ->). rewrite !sforallb_app in Ht. apply andb_prop in Ht as [_ Ht]. cbn in Ht. discriminate. }
  destruct Hs as [Hne Hs]. destruct (Hx s Hs) as [Hl Hc]. unfold wildcard_name. rewrite Hl. destruct (startswith "0x" s) eqn:E; [|now rewrite Hl, Hc].
  exfalso. apply startswith_spec in E as (r & E). rewrite E in Hs. cbn in Hs. discriminate.
Qed.
Lemma resolve_conv v : 0 <= ev_value v -> is_reserved (ev_name v) = false -> resolve_wildcard (conv_ev v) = ([], Ok [inj_ev v]).
Proof.
  intros Hz Hr. unfold resolve_wildcard. cbn [conv_ev sev_value sev_name sev_descr sev_default].
  destruct (str_of_Z (ev_value v)) as [|a t] eqn:E; [exfalso; apply (proj1 (digits_str _ Hz)); exact E|]. rewrite <- E. rewrite (convert_dec _ Hz).
  cbn [bind ret map mapM app concat fst snd]. unfold is_reserved in Hr. rewrite Hr. cbn [ret]. rewrite (wildcard_dec _ _ Hz). reflexivity.
Qed.
Lemma loop_conv l : (forall v, In v l -> 0 <= ev_value v /\ is_reserved (ev_name v) = false) -> forall st,
  (forall v, In v l -> ~ In (ev_value v) (map fst (vl_values st))) -> NoDup (map ev_value l) ->
  exists w st', process_evs_loop st (map conv_ev l) = (w, Ok (st', map inj_ev (first_names (vl_names st) l))) /\ vl_default st' = vl_default st.
Proof.
  induction l as [|v l IH]; intros HV st H3 H4; [exists [], st; split; reflexivity|]. cbn [map process_evs_loop]. destruct (HV v (or_introl eq_refl)) as [V1 V2]. rewrite (resolve_conv v V1 V2).
  cbn [bind]. cbn [validate_all first_names]. unfold is_value_valid. cbn [inj_ev iev_name iev_value iev_default]. cbn [map] in H4. inversion H4 as [|? ? N3 N4]; subst.
  destruct (in_dec string_dec (ev_name v) (vl_names st)) as [K|K].
  - replace (mem_str (ev_name v) (vl_names st)) with true by (symmetry; now apply mem_str_In). cbn [warn bind ret app fst snd].
    destruct (IH (fun u Hu => HV u (or_intror Hu)) st) as (w & st' & E & Ed); [intros u Hu; apply H3; now right|exact N4|]. eexists; exists st'. rewrite E. cbn [bind ret fst snd app]. split; [reflexivity|exact Ed].
  - replace (mem_str (ev_name v) (vl_names st)) with false by (symmetry; now apply mem_str_nIn).
    replace (has_value (Some (ev_value v)) (vl_values st)) with false by (symmetry; apply Bool.not_true_is_false; unfold has_value; rewrite has_value_spec; apply H3; now left).
    cbn [bind ret app fst snd].
    match goal with |- context [process_evs_loop ?s _] => destruct (IH (fun u Hu => HV u (or_intror Hu)) s) as (w & st' & E & Ed) end.
    + cbn [vl_values inj_ev iev_value iev_name map fst]. intros u Hu [L|L]; [apply N3; rewrite L; now apply in_map|exact (H3 u (or_intror Hu) L)].
    + exact N4.
    + exists w, st'. rewrite E. cbn [bind ret fst snd app vl_names inj_ev iev_name map]. rewrite app_nil_r. split; [reflexivity|exact Ed].
Qed.
Lemma first_incl l : forall seen v, In v (first_names seen l) -> In v l.
Proof.
  induction l as [|a l IH]; intros seen v; cbn [first_names]; [tauto|]. destruct (in_dec _ _ _); cbn [In]; [eauto|]. intros [H|H]; eauto.
Qed.
Lemma first_sorted {K} (R : K -> K -> Prop) (key : ev -> K) l : forall seen, StronglySorted R (map key l) -> StronglySorted R (map key (first_names seen l)).
Proof.
  induction l as [|a l IH]; intros seen H; cbn [first_names]; [constructor|]. cbn [map] in H. apply StronglySorted_inv in H as [H1 H2]. destruct (in_dec _ _ _); [auto|]. cbn [map]. constructor; [auto|].
  rewrite Forall_forall in *. intros k Hk. apply in_map_iff in Hk as (u & <- & Hu). apply H2, in_map. now apply first_incl in Hu.
Qed.
Lemma first_nodup l : forall seen, NoDup (map ev_name (first_names seen l)) /\ forall v, In v (first_names seen l) -> ~ In (ev_name v) seen.
Proof.
  induction l as [|a l IH]; intros seen; cbn [first_names]; [split; [constructor|intros ? []]|]. destruct (in_dec _ _ _) as [K|K]; [apply IH|]. destruct (IH (ev_name a :: seen)) as [H1 H2]. cbn [map]. split.
  - constructor; [|exact H1]. intros L. apply in_map_iff in L as (u & E & Hu). apply (H2 u Hu). now left.
  - intros v [<-|Hv]; [exact K|]. intros L. apply (H2 v Hv). now right.
Qed.
Lemma first_id l : forall seen, NoDup (map ev_name l) -> (forall v, In v l -> ~ In (ev_name v) seen) -> first_names seen l = l.
Proof.
  induction l as [|a l IH]; intros seen H1 H2; cbn [first_names]; [reflexivity|]. cbn [map] in H1. inversion H1 as [|? ? N1 N2]; subst. destruct (in_dec _ _ _) as [K|K]; [destruct (H2 a (or_introl eq_refl) K)|]. f_equal. apply IH; [exact N2|].
  intros v Hv [L|L]; [apply N1; rewrite L; now apply in_map|exact (H2 v (or_intror Hv) L)].
Qed.
Lemma tidy_again w c : TidyEvs w c -> TidyEvs w (again_evc c).
Proof. intros [H1 H2]. split; cbn [again_evc evc_evs]; [now apply first_sorted|]. intros v Hv. apply H2. eapply first_incl; eauto. Qed.
Lemma create_conv c w lsb msb : TidyEvs w c -> exists ws, create_evc (conv_evc c) lsb msb = (ws, Ok (inj_evc (again_evc c))).
Proof.
  intros HT. assert (HT' := tidy_again _ _ HT). destruct HT as [HS HV], HT' as [HS' _]. unfold create_evc, process_enumerated_values. cbn [conv_evc sevc_evs sevc_name sevc_header sevc_usage].
  assert (HD : NoDup (map ev_value (evc_evs c))). { clear - HS. induction HS as [|a l _ IH HF]; constructor; [|exact IH]. intros K. rewrite Forall_forall in HF. specialize (HF _ K). lia. }
  destruct (loop_conv (evc_evs c)) with (st := validator_init) as (ws & st' & E & Ed); auto; [intros v Hv; destruct (HV v Hv) as [? ?]; split; [lia|assumption]|].
  rewrite E. cbn [bind fst snd app]. rewrite Ed. cbn [bind ret app vl_default validator_init vl_names]. rewrite sorted_id.
  - eexists. reflexivity.
  - rewrite map_map. cbn [inj_ev iev_key iev_value default]. exact HS'.
Qed.

(** ** Validation, again *)
Lemma sorted_unique {A} (le : A -> A -> bool) l1 : forall l2, Permutation l1 l2 -> StronglySorted (leP le) l1 -> StronglySorted (leP le) l2 ->
  (forall x y, In x l1 -> In y l1 -> le x y = true -> le y x = true -> x = y) -> l1 = l2.
Proof.
  induction l1 as [|a l1 IH]; intros l2 HP H1 H2 HU; [apply Permutation_nil in HP; now subst|]. destruct l2 as [|b l2]; [apply Permutation_sym, Permutation_nil in HP; discriminate|].
  apply StronglySorted_inv in H1 as [H1 F1], H2 as [H2 F2]. rewrite Forall_forall in F1, F2.
  assert (E : a = b). { assert (K1 : In a (b :: l2)) by (eapply Permutation_in; [exact HP|now left]). assert (K2 : In b (a :: l1)) by (eapply Permutation_in; [apply Permutation_sym, HP|now left]). destruct K1 as [->|K1]; [reflexivity|]. destruct K2 as [->|K2]; [reflexivity|]. apply HU; [now left|now right|exact (F1 _ K2)|exact (F2 _ K1)]. }
  subst b. f_equal. apply IH; auto; [eapply Permutation_cons_inv; exact HP|]. intros x y Hx Hy. apply HU; now right.
Qed.
Lemma isort_unique {A} (le : A -> A -> bool) l s : (forall x y, le x y = false -> le y x = true) -> (forall x y z, le x y = true -> le y z = true -> le x z = true) ->
  Permutation l s -> StronglySorted (leP le) s -> (forall x y, In x s -> In y s -> le x y = true -> le y x = true -> x = y) -> isort le l = s.
Proof.
  intros Ht Htr HP HS HU. symmetry. apply (sorted_unique le); auto; [|apply isort_sorted; auto]. eapply Permutation_trans; [apply Permutation_sym, HP|apply isort_perm].
Qed.
Lemma nodup_key {A K} (key : A -> K) l : NoDup (map key l) -> forall x y, In x l -> In y l -> key x = key y -> x = y.
Proof.
  induction l as [|a l IH]; intros H x y Hx Hy E; [destruct Hx|]. cbn in H. inversion H as [|? ? N1 N2]; subst. destruct Hx as [<-|Hx], Hy as [<-|Hy]; auto; exfalso; apply N1; [rewrite E|rewrite <- E]; now apply in_map.
Qed.

Lemma fin_values_inj l lsb msb : (forall v, In v l -> 0 <= ev_value v <= 2 ^ (msb - lsb + 1) - 1) -> fin_enum_values (map inj_ev l) lsb msb = ([], Ok l).
Proof.
  induction l as [|v l IH]; intros H; [reflexivity|]. cbn [map fin_enum_values inj_ev iev_value iev_name iev_descr]. assert (K := H v (or_introl eq_refl)). replace (_ || _) with false by lia.
  rewrite IH by (intros; apply H; now right). destruct v. reflexivity.
Qed.
Lemma usages_distinct cs : usages_ok (map evc_usage cs) -> NoDup (map evc_usage cs).
Proof. intros [->|[[u ->]|[-> | ->]]]; repeat constructor; cbn; intuition discriminate. Qed.
Lemma mapM_ok_all {A B} (f : A -> M B) l m : Forall2 (fun a b => f a = ([], Ok b)) l m -> mapM f l = ([], Ok m).
Proof. induction 1 as [|a b l m H HF IH]; [reflexivity|]. cbn [mapM]. rewrite H. cbn [bind]. rewrite IH. reflexivity. Qed.
Lemma fin_evcs_like f ics rwc : FirmField rwc f -> StronglySorted (leP evc_le) (f_evcs f) -> Permutation ics (map inj_evc (f_evcs f)) -> fin_enum_containers ics (f_lsb f) (f_msb f) = ([], Ok (f_evcs f)).
Proof.
  intros HF HS HP. apply Permutation_map_inv in HP as (cs & -> & HP). unfold fin_enum_containers. rewrite (mapM_ok_all _ _ cs).
  - cbn [bind ret app]. f_equal. f_equal. apply isort_unique.
    + intros x y. exact (cmp_le_total _ is_evc_cmp (evc_key x) (evc_key y)).
    + intros x y z. exact (cmp_le_trans _ is_evc_cmp (evc_key x) (evc_key y) (evc_key z)).
    + now apply Permutation_sym.
    + exact HS.
    + intros x y Hx Hy H1 H2. assert (E := cmp_le_antisym _ is_evc_cmp _ _ H1 H2). apply (nodup_key evc_usage (f_evcs f)); auto; [apply usages_distinct, HF|]. unfold evc_key in E. injection E as E _.
      destruct (evc_usage x), (evc_usage y); cbn in E; congruence.
  - assert (K : forall c, In c cs -> TidyEvs (f_msb f - f_lsb f + 1) c) by (intros c Hc; apply (ff_evs _ _ HF); eapply Permutation_in; [apply Permutation_sym, HP|exact Hc]). clear - K. induction cs as [|c cs IH]; cbn [map]; constructor; [|apply IH; intros; apply K; now right].
    cbn [inj_evc ievc_evs ievc_name ievc_header ievc_usage]. rewrite fin_values_inj; [destruct c; reflexivity|]. intros v Hv. apply (proj2 (K c (or_introl eq_refl)) v Hv).
Qed.

Definition LikeF (f : field) (g : ifield) : Prop := if_b g = f_b f /\ if_access g = Some (f_access f) /\ Permutation (if_evcs g) (map inj_evc (f_evcs f)).
Inductive Like : rc -> irc -> Prop :=
| Like_reg r q : ir_b q = r_b r -> ir_props q = conv_props (r_props r) -> Forall2 LikeF (r_fields r) (ir_fields q) -> Like (Reg r) (IReg q)
| Like_clu c l d xs l' : ic_b d = c_b c -> ic_props d = conv_props (c_props c) -> Permutation l l' -> Forall2 Like l' xs -> Like (Clu c l) (IClu d xs).
Definition LikePer (p : per) (x : iper) : Prop := ip_b x = pr_b p /\ ip_props x = conv_props (pr_props p) /\ exists l', Permutation (pr_rcs p) l' /\ Forall2 Like l' (ip_rcs x).

Lemma inherit_conv p up : inherit_oprops (conv_props p) up = conv_props p.
Proof. reflexivity. Qed.
Lemma Forall2_map_r {A B C} (R : A -> B -> Prop) (R' : A -> C -> Prop) (h : B -> C) l m : Forall2 R l m -> (forall a b, In a l -> R a b -> R' a (h b)) -> Forall2 R' l (map h m).
Proof. induction 1 as [|a b l m H HF IH]; intros K; constructor; [apply K; [now left|exact H]|]. apply IH. intros; apply K; [now right|assumption]. Qed.
Lemma inherit_like y : forall x up, Firm y -> Like y x -> Like y (inherit_rc up x).
Proof.
  induction y as [r|c l IH] using rc_ind'; intros x up HF HL; inversion HL as [? q E1 E2 H|? ? d xs l' E1 E2 HP H]; subst; cbn [inherit_rc].
  - constructor; cbn [ir_b ir_props ir_fields]; [exact E1|rewrite E2; reflexivity|]. eapply Forall2_map_r; [exact H|]. intros f g Hf (L1 & L2 & L3). inversion HF as [? HF1 _|]; subst. unfold LikeF, inherit_field. cbn [if_b if_access if_evcs]. rewrite L1, L2. split; [|split; [reflexivity|exact L3]].
    destruct (f_b f) as [n dsc ls ms mw wc ra] eqn:Ef. cbn. destruct wc as [wc|]; [reflexivity|]. cbn. rewrite E1. rewrite (ff_wc _ _ (HF1 f Hf)); [reflexivity|]. now rewrite Ef.
  - econstructor; cbn [ic_b ic_props]; [exact E1|rewrite E2; reflexivity|exact HP|]. eapply Forall2_map_r; [exact H|]. inversion HF as [|? ? HF1 _]; subst. rewrite Forall_forall in IH. intros a b Ha Hab. assert (Ha' : In a l) by (eapply Permutation_in; [apply Permutation_sym, HP|exact Ha]). apply IH; auto.
Qed.

Lemma field_eta f : f_bit_offset f = f_lsb f -> f_bit_width f = f_msb f - f_lsb f + 1 -> f_bit_range f = (f_msb f, f_lsb f) ->
  mk_field (f_b f) (f_access f) (f_lsb f) (f_msb f - f_lsb f + 1) (f_msb f, f_lsb f) (f_evcs f) = f.
Proof. intros <- <- <-. destruct f; reflexivity. Qed.
Lemma fin_fields_like size fs gs rwc : good_fields size fs -> (forall f, In f fs -> FirmField rwc f) -> Forall2 LikeF fs gs -> exists w, fin_fields gs size = (w, Ok fs).
Proof.
  intros (G1 & G2 & G3 & G4) HF HL. unfold fin_fields.
  assert (K : forall seen, (forall n, In n seen -> ~ In n (map f_name fs)) -> fin_fields_loop seen gs = ([], Ok fs)).
  { clear G2 G3. induction HL as [|f g fs gs (L1 & L2 & L3) HL IH]; intros seen Hs; [reflexivity|]. cbn [fin_fields_loop]. rewrite L1. inversion G4 as [|? ? (A1 & A2 & A3 & A4 & A5) G4']; subst. change (fb_name (f_b f)) with (f_name f). rewrite A1.
    replace (mem_str (f_name f) seen) with false by (symmetry; apply mem_str_nIn; intros K; exact (Hs _ K (or_introl eq_refl))). unfold raise_if. rewrite bind_ret_l. change (fb_lsb (f_b f)) with (f_lsb f). change (fb_msb (f_b f)) with (f_msb f).
    rewrite (fin_evcs_like f _ rwc (HF f (or_introl eq_refl)) A5 L3). cbn [bind]. unfold field_from. rewrite L2, L1. cbn [bind ret app]. cbn [map] in G1. inversion G1 as [|? ? N1 N2]; subst. rewrite IH; auto.
    - cbn [bind ret app]. f_equal. f_equal. f_equal. exact (field_eta _ A2 A3 A4).
    - intros; apply HF; now right.
    - intros n [<-|Hn] K; [exact (N1 K)|exact (Hs n Hn (or_intror K))]. }
  rewrite (K []) by (intros n []). cbn [bind app]. assert (E : isort (zkey_le f_lsb) fs = fs). { apply isort_id. eapply StronglySorted_impl; [|exact G2]. intros a b Hab. unfold leP, zkey_le. now apply Z.leb_le. } rewrite E.
  assert (C : exists w, check_fields [] [] size fs = (w, Ok tt)) by (apply check_fields_iff; split; [exact G3|]; intros f _; split; intros _ g []). destruct C as (w & ->). eexists; reflexivity.
Qed.

Lemma rc_key_dup x y : rc_key x = rc_key y -> rc_dup_name x = rc_dup_name y.
Proof.
  intros E. assert (E1 : alt_key (rc_altgroup x) = alt_key (rc_altgroup y)) by exact (f_equal (fun k => fst (snd k)) E). assert (E2 : rc_name x = rc_name y) by exact (f_equal (fun k => snd (snd k)) E). clear E.
  destruct x as [r|c l], y as [r'|c' l']; cbn [rc_dup_name rc_altgroup rc_name] in *; rewrite ?E2; unfold alt_key in E1; [|destruct (rb_altgroup (r_b r)); [discriminate|reflexivity]|destruct (rb_altgroup (r_b r')); [discriminate|reflexivity]|reflexivity].
  destruct (rb_altgroup (r_b r)) as [g|], (rb_altgroup (r_b r')) as [g'|]; try discriminate; [|reflexivity]. injection E1 as ->. reflexivity.
Qed.
Lemma fin_rcs_like (h : irc -> M (option rc)) l l' xs : good_sibs l -> AltOk l -> Permutation l l' -> Forall2 (fun y x => exists w, h x = (w, Ok (Some y))) l' xs -> exists w, fin_rcs h xs = (w, Ok l).
Proof.
  intros [S1 S2] HA HP HF. assert (HL : exists w, Loop h xs l' w). { clear - HF. induction HF as [|y x l' xs (w & H) HF (w' & IH)]; [exists []; constructor|]. exists (w ++ w'). now constructor. } destruct HL as (w & HL).
  assert (HN : NoDup (map rc_dup_name l')) by (eapply Permutation_NoDup; [apply Permutation_map, HP|exact S2]).
  unfold fin_rcs. rewrite (fin_loop_total h xs l' w HL [] HN). cbn [bind app].
  assert (E : isort rc_le l' = l). { apply isort_unique; [apply rc_le_total|apply rc_le_trans|now apply Permutation_sym|exact S1|]. intros x y Hx Hy H1 H2. apply (nodup_key rc_dup_name l); auto. apply rc_key_dup. exact (cmp_le_antisym _ is_rc_cmp _ _ H1 H2). } rewrite E.
  assert (C : ok (check_rc_overlaps (reg_lookup l') (clu_lookup l') [] l)) by (apply (overlaps_fine (map inj_rc l') l' l); [apply inj_sames|exact HN|now apply Permutation_sym|exact (alt_perm _ _ HP HA)]). destruct C as (w' & [] & ->). eexists; reflexivity.
Qed.
Lemma machine_align s : machine_size s -> s mod 8 = 0 /\ exists a, get_alignment (s / 8) = ([], Ok a).
Proof. intros [-> | [-> | [-> | [-> | ->]]]]; (split; [reflexivity|]); eexists; reflexivity. Qed.
Lemma fin_rc_like y : forall x base, Good base y -> Firm y -> Like y x -> exists w, fin_rc x base = (w, Ok (Some y)).
Proof.
  induction y as [r|c l IH] using rc_ind'; intros x base HG HF HL; inversion HL as [? q E1 E2 H|? ? d xs l' E1 E2 HP H]; subst; cbn [fin_rc irc_props irc_offset].
  - inversion HG as [? ? G1 G2 G3 G4 G5|]; subst. inversion HF as [? F1 F2|]; subst. rewrite E2. cbn [conv_props op_size]. destruct (machine_align _ G2) as [M1 (a & M2)]. rewrite M1. change (negb (0 =? 0)) with false. cbn iota. unfold to_byte. rewrite M1. change (negb (0 =? 0)) with false. unfold raise_if at 1. rewrite bind_ret_l, bind_ret_l.
    rewrite M2. cbn [bind app]. rewrite E1. assert (A : exists w0, warn_if (negb (rb_offset (r_b r) mod a =? 0)) (W_RcUnaligned (irc_name (IReg q))) = (w0, Ok tt)) by (destruct (negb _); eexists; reflexivity). destruct A as (w0 & ->). cbn [bind]. rewrite G3.
    replace (is_some (rb_altreg (r_b r)) && is_some (rb_altgroup (r_b r))) with false by (destruct G4 as [-> | ->]; [reflexivity|now rewrite andb_false_r]). unfold raise_if. cbn [bind ret app].
    destruct (fin_fields_like _ _ _ _ G5 F1 H) as (w1 & ->). cbn [bind]. unfold reg_prop_validator, conv_props. cbn [op_size op_access op_prot op_rv op_rm bind ret app]. exists (w0 ++ w1). rewrite app_nil_r. f_equal. f_equal. f_equal. f_equal. destruct r as [b p fs rb]. cbn in *. subst rb. destruct p. reflexivity.
  - inversion HG as [|? ? ? G1 G2 G3 G4 G5 G6 G7]; subst. inversion HF as [|? ? F1 F2]; subst. rewrite E2. cbn [conv_props op_size]. destruct (machine_align _ G2) as [M1 (a & M2)]. rewrite M1. change (negb (0 =? 0)) with false. cbn iota. unfold to_byte. rewrite M1. change (negb (0 =? 0)) with false. unfold raise_if at 1. rewrite bind_ret_l, bind_ret_l.
    rewrite M2. cbn [bind app]. rewrite E1. assert (A : exists w0, warn_if (negb (cb_offset (c_b c) mod a =? 0)) (W_RcUnaligned (irc_name (IClu d xs))) = (w0, Ok tt)) by (destruct (negb _); eexists; reflexivity). destruct A as (w0 & ->). cbn [bind]. rewrite <- G1.
    destruct (fin_rcs_like (fun y => fin_rc y (c_base c)) l l' xs G5 F2 HP) as (w1 & ->).
    { assert (K : forall y, In y l' -> In y l) by (intros; eapply Permutation_in; [apply Permutation_sym, HP|assumption]). rewrite Forall_forall in IH. clear - H K IH G4 F1. induction H as [|y x l' xs H HF IHF]; constructor; [|apply IHF; intros; apply K; now right]. assert (Ky := K y (or_introl eq_refl)). exact (IH y Ky x _ (G4 y Ky) (F1 y Ky) H). }
    cbn [bind app]. destruct l as [|y0 l0]; [congruence|]. rewrite <- G6. unfold reg_prop_validator, conv_props. cbn [op_size op_access op_prot op_rv op_rm bind ret app]. eexists. f_equal. f_equal. f_equal. f_equal. destruct c as [b p cb ce cs]. cbn in *. subst cs. destruct p. reflexivity.
Qed.
Lemma inherit_per_like p x up : FirmPer p -> LikePer p x -> LikePer p (inherit_per up x).
Proof.
  intros HF (E1 & E2 & l' & HP & H). unfold LikePer, inherit_per. cbn [ip_b ip_props ip_rcs]. rewrite E2. split; [exact E1|]. split; [reflexivity|]. exists l'. split; [exact HP|].
  eapply Forall2_map_r; [exact H|]. intros a b Ha Hab. apply inherit_like; [|exact Hab]. apply (fp_rcs _ HF). eapply Permutation_in; [apply Permutation_sym, HP|exact Ha].
Qed.
Lemma fin_per_like p x : GoodPer p -> FirmPer p -> LikePer p x -> exists w, fin_per x = (w, Ok (Some p)).
Proof.
  intros HG HF (E1 & E2 & l' & HP & H). unfold fin_per. rewrite E1, E2.
  destruct (fin_rcs_like (fun y => fin_rc y (pb_base (pr_b p))) (pr_rcs p) l' (ip_rcs x) (gp_sibs _ HG) (fp_alt _ HF) HP) as (w1 & ->).
  { assert (K : forall y, In y l' -> In y (pr_rcs p)) by (intros; eapply Permutation_in; [apply Permutation_sym, HP|assumption]). clear HP E1 E2. induction H as [|y z l' xs H HH IHF]; constructor; [|apply IHF; intros; apply K; now right].
    assert (Ky := K y (or_introl eq_refl)). exact (fin_rc_like y z _ (gp_rcs _ HG y Ky) (fp_rcs _ HF y Ky) H). }
  cbn [bind app]. assert (Hne := gp_ne _ HG). assert (Hab := gp_abs _ HG). destruct (pr_rcs p) as [|y0 l0] eqn:Er; [congruence|]. rewrite <- Er in *.
  assert (A : exists w0, warn_if (negb (pb_base (pr_b p) mod 4 =? 0)) (W_PeriphUnaligned (pb_name (pr_b p))) = (w0, Ok tt)) by (destruct (negb _); eexists; reflexivity). destruct A as (w0 & ->). cbn [bind conv_props op_size]. rewrite (gp_size _ HG). change (negb (0 =? 0)) with false. cbn iota.
  replace (match pb_abs (pr_b p) with [] => true | _ => false end) with false by (destruct (pb_abs (pr_b p)); [congruence|reflexivity]). unfold raise_if at 1. rewrite bind_ret_l.
  destruct (check_blocks_ok (pb_abs (pr_b p))) as (w2 & [] & ->). unfold reg_prop_validator, conv_props. cbn [bind ret app op_size op_access op_prot op_rv op_rm]. eexists. f_equal. f_equal. f_equal.
  assert (Ee : max_list (map (fun r => pb_base (pr_b p) + rc_offset r + rc_bytes r - 1) (pr_rcs p)) = pr_end_eff p).
  { rewrite (gp_end_eff _ HG). f_equal. apply map_ext_in. intros z Hz. assert (Gz := gp_rcs _ HG z Hz). rewrite <- (Good_rc_bytes _ _ Gz). destruct Gz as [base r|base c l]; cbn; lia. }
  rewrite Ee, <- (gp_end _ HG), <- (gp_psize _ HG), <- (gp_size_eff _ HG), <- (gp_regs _ HG). destruct p as [? [] ? ? ? ? ? ?]. reflexivity.
Qed.
Definition LikeDev (dev : device) (i : idevice) : Prop := idv_b i = dv_b dev /\ exists l, Permutation (dv_periphs dev) l /\ Forall2 LikePer l (idv_periphs i).
Lemma per_key_name x y : per_key x = per_key y -> per_name x = per_name y.
Proof. intros E. exact (f_equal snd E). Qed.
Lemma finalize_like dev i : FirmDev dev -> LikeDev dev i -> exists w, finalize (inherit_properties i) = (w, Ok dev).
Proof.
  intros HF (E1 & l & HP & H). unfold finalize, inherit_properties. cbn [idv_b idv_periphs]. set (up := oprops_of_props _).
  assert (K : forall p, In p l -> In p (dv_periphs dev)) by (intros; eapply Permutation_in; [apply Permutation_sym, HP|assumption]).
  assert (HL : exists w, PLoop (map (inherit_per up) (idv_periphs i)) l w).
  { clear HP E1. clearbody up. induction H as [|p x l xs H HH IH]; [exists []; constructor|]. destruct IH as (w' & IH); [intros; apply K; now right|]. assert (Kp := K p (or_introl eq_refl)).
    destruct (fin_per_like p (inherit_per up x)) as (w & Hw); [exact (gd_pers _ (fd_good _ HF) p Kp)|exact (fd_pers _ HF p Kp)|apply inherit_per_like; [exact (fd_pers _ HF p Kp)|exact H]|]. exists (w ++ w'). cbn [map]. now constructor. }
  destruct HL as (w & HL). assert (HN : NoDup (map per_name l)) by (eapply Permutation_NoDup; [apply Permutation_map, HP|exact (gd_names _ (fd_good _ HF))]).
  unfold fin_pers. rewrite (fin_pers_loop_total _ _ _ HL [] HN). cbn [bind app].
  assert (E : isort per_le l = dv_periphs dev).
  { apply isort_unique; [apply per_le_total|apply per_le_trans|now apply Permutation_sym|exact (gd_sorted _ (fd_good _ HF))|]. intros x y Hx Hy H1 H2. apply (nodup_key per_name (dv_periphs dev) (gd_names _ (fd_good _ HF))); auto. apply per_key_name. exact (cmp_le_antisym _ is_reg_cmp _ _ H1 H2). }
  rewrite E. assert (C : ok (check_per_overlaps (map (fun p => (per_name p, pb_altper (pr_b p))) l) [] [] (dv_periphs dev))).
  { apply check_per_ok_iff. intros q Hq. apply (strict_ok_iff per_name (fun p => pb_altper (pr_b p)) l HN); [|eapply Permutation_in; eauto]. intros p a Hp Ha. assert (X := fd_alt _ HF p a (K p Hp) Ha). eapply Permutation_in; [apply Permutation_map, HP|exact X]. }
  destruct C as (w' & [] & ->). cbn [bind ret app]. rewrite E1. eexists. f_equal. f_equal. destruct dev; reflexivity.
Qed.

(** ** The device described again is as good as the first one *)
Lemma again_dup x : rc_dup_name (again x) = rc_dup_name x.
Proof. destruct x; reflexivity. Qed.
Lemma again_base x : rc_base (again x) = rc_base x.
Proof. destruct x; reflexivity. Qed.
Lemma again_bytes x : rc_bytes (again x) = rc_bytes x.
Proof. destruct x; reflexivity. Qed.
Lemma again_last x : last_byte (again x) = last_byte x.
Proof. destruct x; reflexivity. Qed.
Lemma again_key x : rc_key (again x) = rc_key x.
Proof. destruct x; reflexivity. Qed.
Lemma sorted_map {A B} (le : A -> A -> bool) (le' : B -> B -> bool) (h : A -> B) l : (forall x y, le' (h x) (h y) = le x y) -> StronglySorted (leP le) l -> StronglySorted (leP le') (map h l).
Proof.
  intros E. induction 1 as [|a l H IH HF]; cbn; constructor; [exact IH|]. rewrite Forall_forall in *. intros b Hb. apply in_map_iff in Hb as (c & <- & Hc). unfold leP. rewrite E. now apply HF.
Qed.
Lemma insert_map {A B} (le : A -> A -> bool) (le' : B -> B -> bool) (h : A -> B) : (forall x y, le' (h x) (h y) = le x y) -> forall a l, insert le' (h a) (map h l) = map h (insert le a l).
Proof. intros E a l. induction l as [|b l IH]; cbn; [reflexivity|]. rewrite E. destruct (le a b); cbn; [reflexivity|]. now rewrite IH. Qed.
Lemma isort_map {A B} (le : A -> A -> bool) (le' : B -> B -> bool) (h : A -> B) : (forall x y, le' (h x) (h y) = le x y) -> forall l, isort le' (map h l) = map h (isort le l).
Proof. intros E l. induction l as [|a l IH]; cbn; [reflexivity|]. rewrite IH. apply insert_map, E. Qed.
Lemma good_sibs_again l : good_sibs l -> good_sibs (map again l).
Proof.
  intros [H1 H2]. split; [eapply sorted_map; [|exact H1]; intros x y; unfold rc_le; now rewrite !again_key|]. rewrite map_map, (map_ext _ rc_dup_name) by apply again_dup. exact H2.
Qed.
Lemma largest_machine l : l <> [] -> (forall x, In x l -> machine_size (p_size (el_props x))) -> machine_size (largest_size l).
Proof.
  intros Hne H. destruct l as [|a l]; [congruence|]. clear Hne. assert (K : machine_size (largest_size (a :: l)) /\ 0 < largest_size (a :: l)); [|apply K]. revert a H. induction l as [|b l IH]; intros a H.
  - unfold largest_size. cbn. assert (Ha := H a (or_introl eq_refl)). rewrite Z.max_l by (destruct Ha as [-> |[-> |[-> |[-> | ->]]]]; lia). split; [exact Ha|destruct Ha as [-> |[-> |[-> |[-> | ->]]]]; lia].
  - destruct (IH b) as [K1 K2]; [intros; apply H; now right|]. assert (Ha := H a (or_introl eq_refl)). change (largest_size (a :: b :: l)) with (Z.max (p_size (el_props a)) (largest_size (b :: l))).
    destruct (Z.max_spec (p_size (el_props a)) (largest_size (b :: l))) as [[? ->]|[? ->]]; [auto|]. split; [exact Ha|lia].
Qed.
Lemma Good_machine b x : Good b x -> machine_size (p_size (el_props x)).
Proof. destruct 1; assumption. Qed.
Lemma evcs_again_sorted l : StronglySorted (leP evc_le) l -> (forall c c', In c l -> In c' l -> evc_usage c = evc_usage c' -> c = c') -> NoDup (map evc_usage l) -> StronglySorted (leP evc_le) (map again_evc l).
Proof.
  intros H _ HN. induction H as [|c l H IH HF]; cbn; constructor; [apply IH; now inversion HN|]. rewrite Forall_forall in *. intros d Hd. apply in_map_iff in Hd as (e & <- & He). specialize (HF e He).
  unfold leP, evc_le, evc_key, cmp_le, pair_cmp in *. cbn [fst snd again_evc evc_usage] in *. destruct (str_cmp _ _) eqn:E; [|reflexivity|discriminate]. exfalso. apply (cmp_refl_eq _ str_cmp_is) in E.
  inversion HN as [|? ? N1 _]; subst. apply N1. replace (evc_usage c) with (evc_usage e); [now apply in_map|]. destruct (evc_usage c), (evc_usage e); cbn in E; congruence.
Qed.
Lemma firm_field_again rwc f : FirmField rwc f -> FirmField rwc (again_field f).
Proof.
  intros [H1 H2 H3]. constructor; cbn [again_field f_b f_evcs]; [exact H1|rewrite map_map; exact H2|]. intros c Hc. apply in_map_iff in Hc as (d & <- & Hd). apply tidy_again. exact (H3 d Hd).
Qed.
Lemma FOP_map {A B} (R : A -> A -> Prop) (R' : B -> B -> Prop) (h : A -> B) l : (forall x y, R x y -> R' (h x) (h y)) -> ForallOrdPairs R l -> ForallOrdPairs R' (map h l).
Proof. intros E. induction 1 as [|a l HF H IH]; cbn; constructor; [|exact IH]. rewrite Forall_forall in *. intros b Hb. apply in_map_iff in Hb as (c & <- & Hc). apply E. now apply HF. Qed.
Lemma good_fields_again size fs rwc : (forall f, In f fs -> FirmField rwc f) -> good_fields size fs -> good_fields size (map again_field fs).
Proof.
  intros HF (G1 & G2 & G3 & G4). split; [|split; [|split]].
  - rewrite map_map. exact G1.
  - clear - G2. induction G2 as [|a l H IH HF]; cbn; constructor; [exact IH|]. rewrite Forall_forall in *. intros b Hb. apply in_map_iff in Hb as (c & <- & Hc). exact (HF c Hc).
  - eapply FOP_map; [|exact G3]. intros x y H. exact H.
  - rewrite Forall_forall in *. intros f' Hf. apply in_map_iff in Hf as (f & <- & Hf). destruct (G4 f Hf) as (A1 & A2 & A3 & A4 & A5). split; [exact A1|]. split; [exact A2|]. split; [exact A3|]. split; [exact A4|]. cbn [again_field f_evcs].
    assert (HN := usages_distinct _ (ff_us _ _ (HF f Hf))). apply evcs_again_sorted; [exact A5|intros; eapply nodup_key; eauto|exact HN].
Qed.
Lemma good_again y : forall b, Firm y -> Good b y -> Good b (again y).
Proof.
  induction y as [r|c l IH] using rc_ind'; intros b HF HG; cbn [again]; inversion HG as [? ? G1 G2 G3 G4 G5|? ? ? G1 G2 G3 G4 G5 G6 G7]; inversion HF as [? F1 F2|? ? F1 F2]; subst.
  - constructor; auto. cbn [again_reg r_props r_fields]. eapply good_fields_again; eauto.
  - rewrite Forall_forall in IH. assert (GK : forall x, In x (map again l) -> Good (c_base c) x) by (intros x Hx; apply in_map_iff in Hx as (z & <- & Hz); apply IH; auto).
    assert (Hne : map again l <> []) by (destruct l; [congruence|discriminate]).
    constructor; cbn [c_b c_props c_base c_end c_size sized p_size]; auto.
    + apply largest_machine; [exact Hne|]. intros x Hx. eapply Good_machine; eauto.
    + now apply good_sibs_again.
    + rewrite G6, map_map. f_equal. apply map_ext. intros x. now rewrite again_base, again_bytes.
Qed.
Lemma alt_again l : AltOk l -> AltOk (map again l).
Proof.
  intros [H1 H2]. unfold AltOk. split.
  - rewrite map_map in H1. rewrite !map_map. erewrite map_ext; [exact H1|]. intros [r|c ch]; reflexivity.
  - assert (EN : cluster_names (map inj_rc (map again l)) = cluster_names (map inj_rc l)).
    { clear. unfold cluster_names. induction l as [|[r|c ch] l IH]; cbn; [reflexivity|exact IH|now rewrite IH]. }
    rewrite EN. intros c ch a Hin Ha. rewrite map_map in Hin. apply in_map_iff in Hin as ([r|d xs] & E & Hx); [discriminate|]. cbn in E. injection E as <- <-. cbn in Ha.
    apply (H2 (mk_iclu (c_b d) none_dim (conv_props (c_props d))) [] a); [|exact Ha]. apply in_map_iff. exists (Clu d xs). auto.
Qed.
Lemma firm_again y : Firm y -> Firm (again y).
Proof.
  induction y as [r|c l IH] using rc_ind'; intros HF; cbn [again]; inversion HF as [? F1 F2|? ? F1 F2]; subst.
  - constructor; cbn [again_reg r_fields r_b].
    + intros f Hf. apply in_map_iff in Hf as (g & <- & Hg). apply firm_field_again. auto.
    + eapply sorted_map; [|exact F2]. reflexivity.
  - rewrite Forall_forall in IH. constructor; [|now apply alt_again]. intros x Hx. apply in_map_iff in Hx as (z & <- & Hz). auto.
Qed.
Lemma extract_again x : extract_rc (again x) = map again_reg (extract_rc x).
Proof.
  induction x as [r|c l IH] using rc_ind'; cbn [again extract_rc map]; [reflexivity|]. rewrite <- (isort_map reg_le reg_le again_reg) by reflexivity. f_equal. clear c. induction IH as [|x l E _ IH]; cbn; [reflexivity|]. rewrite map_app, E. f_equal. exact IH.
Qed.
Lemma extract_all_again l : extract_registers (map again l) = map again_reg (extract_registers l).
Proof.
  unfold extract_registers. rewrite <- (isort_map reg_le reg_le again_reg) by reflexivity. f_equal. induction l as [|x l IH]; cbn; [reflexivity|]. rewrite map_app, extract_again. f_equal. exact IH.
Qed.
Lemma good_per_again p : FirmPer p -> GoodPer p -> GoodPer (again_per p).
Proof.
  intros F G. assert (GK : forall x, In x (map again (pr_rcs p)) -> Good (pb_base (pr_b p)) x) by (intros x Hx; apply in_map_iff in Hx as (z & <- & Hz); apply good_again; [exact (fp_rcs _ F z Hz)|exact (gp_rcs _ G z Hz)]).
  assert (Hne : map again (pr_rcs p) <> []) by (assert (K := gp_ne _ G); destruct (pr_rcs p); [congruence|discriminate]).
  constructor; cbn [again_per pr_b pr_props pr_end pr_end_eff pr_size pr_size_eff pr_rcs pr_regs sized p_size]; auto.
  - apply good_sibs_again, (gp_sibs _ G).
  - apply (gp_abs _ G).
  - apply machine_align, largest_machine; [exact Hne|]. intros x Hx. eapply Good_machine; eauto.
  - rewrite (gp_regs _ G). symmetry. apply extract_all_again.
  - apply (gp_end _ G).
  - rewrite map_map, (gp_end_eff _ G). f_equal. apply map_ext. intros x. symmetry. apply again_last.
  - apply (gp_size_eff _ G).
  - apply (gp_psize _ G).
Qed.
Lemma largest_nn l : 0 <= largest_size l.
Proof. unfold largest_size. induction (map _ l); cbn; lia. Qed.
Lemma firm_per_again p : FirmPer p -> FirmPer (again_per p).
Proof.
  intros F. constructor; cbn [again_per pr_b pr_rcs pr_props sized p_size]; try apply F; [|apply alt_again, F|apply largest_nn]. intros x Hx. apply in_map_iff in Hx as (z & <- & Hz). apply firm_again, (fp_rcs _ F z Hz).
Qed.
Lemma firm_dev_again dev : FirmDev dev -> FirmDev (again_dev dev).
Proof.
  intros F. assert (G := fd_good _ F). constructor; cbn [again_dev dv_periphs].
  - intros p Hp. apply in_map_iff in Hp as (q & <- & Hq). apply firm_per_again, (fd_pers _ F q Hq).
  - intros p a Hp Ha. apply in_map_iff in Hp as (q & <- & Hq). rewrite map_map. exact (fd_alt _ F q a Hq Ha).
  - constructor; cbn [again_dev dv_periphs].
    + intros p Hp. apply in_map_iff in Hp as (q & <- & Hq). apply good_per_again; [exact (fd_pers _ F q Hq)|exact (gd_pers _ G q Hq)].
    + rewrite map_map. exact (gd_names _ G).
    + eapply sorted_map; [|exact (gd_sorted _ G)]. reflexivity.
Qed.
