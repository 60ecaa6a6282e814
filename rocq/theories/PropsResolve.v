(** * PropsResolve: C14, C40, and C01-C03 at the level of whole devices. *)
From Verif Require Import Base PyStr PyInt Types DimModel EnumModel ElemModel FinalModel ResolveModel ProcessModel SpecProcess SpecDevice SpecImage SpecDeclared.
From Verif Require Import SpecEnum EnumFacts EnumFacts2 EnumFacts3 PropsEnum FinalFacts ImageFacts GraphFacts ReplicateFacts ResolveWF ResolveInv PropsDevice Samples.

Lemma DeclaredRc_trans l c ch x : DeclaredRc l (SClu c ch) -> In x ch -> DeclaredRc l x.
Proof.
  intros H Hx. remember (SClu c ch) as y eqn:E. induction H as [l y H|l c' ch' y H H' IH]; subst.
  - eapply DR_deep; [exact H|]. now constructor.
  - eapply DR_deep; [exact H|]. auto.
Qed.

(** ** the shape of resolved elements *)
Definition FldOk (ps : list svd_periph) (f : ifield) : Prop :=
  usages_ok (map ievc_usage (if_evcs f)) /\
  forall c, In c (if_evcs f) -> exists e w, DeclaredEvc ps e /\ create_evc e (fb_lsb (if_b f)) (fb_msb (if_b f)) = (w, Ok c).
Inductive RcOk (ps : list svd_periph) : irc -> Prop :=
| RcOk_reg r : (forall f, In f (ir_fields r) -> FldOk ps f) -> StronglySorted (leP ifield_le) (ir_fields r) -> RcOk ps (IReg r)
| RcOk_clu c l : (forall x, In x l -> RcOk ps x) -> RcOk ps (IClu c l).
Definition sorted_by {A} (k : A -> Z) (l : list A) : Prop := StronglySorted (fun x y => k x <= k y) l.
Definition PerOk (ps : list svd_periph) (p : iper) : Prop :=
  sorted_by ab_offset (pb_abs (ip_b p)) /\ sorted_by int_value (pb_ints (ip_b p)) /\ (forall a, In a (pb_abs (ip_b p)) -> ab_prot a <> None) /\
  (ip_rcs p <> [] -> exists s, op_size (ip_props p) = Some s /\ 0 <= s) /\ forall x, In x (ip_rcs p) -> RcOk ps x.
Definition ValOk (ps : list svd_periph) (v : processed) : Prop :=
  match v with PrPer p => PerOk ps p | PrRc x => RcOk ps x | PrFld f => FldOk ps f end.

Definition NodeOk (ps : list svd_periph) (n : node) : Prop :=
  (n_parsed n = PaDev \/ Declared ps (n_parsed n)) /\ forall v, n_processed n = Some v -> ValOk ps v.

Lemma usages_nil : usages_ok []. Proof. now left. Qed.
Lemma zkey_sorted {A} (k : A -> Z) l : sorted_by k (isort (zkey_le k) l).
Proof.
  assert (H := isort_sorted (zkey_le k) (zkey_le_total k) (zkey_le_trans k) l). unfold sorted_by. induction H as [|x m H IH HF]; constructor; auto.
  eapply Forall_impl; [|exact HF]. intros y Hy. unfold leP, zkey_le in Hy. lia.
Qed.

Lemma create_element_ok ps index name display p bv w v : (forall b, bv = Some b -> ValOk ps b) ->
  create_element index name display p bv = (w, Ok v) -> ValOk ps v.
Proof.
  intros HB H. destruct p as [|p|[r|c l]|f|e]; cbn [create_element] in H; minv; cbn [ValOk].
  - unfold PerOk, process_peripheral. cbn [ip_b ip_rcs pb_abs pb_ints]. 
    assert (Hprot : forall a, In a (process_address_blocks (sp_abs p)) -> ab_prot a <> None).
    { intros a Ha. unfold process_address_blocks in Ha. apply isort_in, in_map_iff in Ha as (b & <- & _). discriminate. }
    set (own := process_address_blocks (sp_abs p)) in *. split; [|split; [apply zkey_sorted|split; [|split; [congruence|intros x []]]]]; [clear Hprot|]. destruct own as [|a own'] eqn:Eo; [|unfold own in Eo; rewrite <- Eo; apply zkey_sorted].
    destruct bv as [[b|?|?]|]; cbn [option_map]; try constructor. apply (HB _ eq_refl).
    + destruct own as [|a own']; [|exact Hprot]. destruct bv as [[b|?|?]|]; cbn [option_map]; try (intros ? []). apply (HB _ eq_refl).
  - constructor; [intros f []|constructor].
  - constructor. intros x [].
  - unfold process_field in Hm. minv. split; [apply usages_nil|intros c []].
Qed.
Lemma create_elements_ok ps p bv names : forall index displays w vs, (forall b, bv = Some b -> ValOk ps b) ->
  create_elements index names displays p bv = (w, Ok vs) -> forall v, In v vs -> ValOk ps v.
Proof.
  induction names as [|n names IH]; intros index displays w vs HB H v Hv; cbn [create_elements] in H; minv; [destruct Hv|].
  destruct Hv as [<-|Hv]; [eapply create_element_ok; eauto|eapply IH; eauto].
Qed.
Lemma with_name_ok ps name v : ValOk ps v -> ValOk ps (with_name name v).
Proof. destruct v as [p|[r|c l]|f]; cbn; auto; intros H; inversion H; subst; now constructor. Qed.
Lemma without_dim_ok ps v : ValOk ps v -> ValOk ps (without_dim v).
Proof. destruct v as [p|[r|c l]|f]; cbn; auto; intros H; inversion H; subst; now constructor. Qed.
Lemma BaseOk_val ps n bv : BaseOk (NodeOk ps) n bv -> forall b, bv = Some b -> ValOk ps b.
Proof. intros [[_ ->]|(path & nb & v & _ & Hn & _ & Hv & ->)] b E; [discriminate|]. injection E as <-. now apply Hn. Qed.

Lemma NodeOk_closed ps : Closed (Declared ps) (NodeOk ps).
Proof.
  constructor.
  - intros p x Hp Hx. exists p. split; [exact Hp|]. now constructor.
  - intros c l x (p & Hp & H) Hx. exists p. split; [exact Hp|]. eapply DeclaredRc_trans; eauto.
  - intros r f (p & Hp & H) Hf. exists p, r. auto.
  - intros f e Hf He. exists f. auto.
  - split; [now left|discriminate].
  - intros p H. split; [now right|discriminate].
  - intros p H. split; [now right|discriminate].
  - intros c l H. split; [now right|discriminate].
  - intros p H. split; [now right|discriminate].
  - intros p H. split; [now right|discriminate].
  - intros n bv w names displays w' v vs [Hd _] _ _ HB _ Hc. split; [exact Hd|]. intros u E. injection E as <-.
    eapply create_elements_ok; [|exact Hc|now left]. eapply BaseOk_val; eauto.
  - intros n bv w names displays w' v vs [Hd _] _ _ HB _ Hc. split; [exact Hd|]. intros u E. injection E as <-. apply with_name_ok.
    eapply create_elements_ok; [|exact Hc|now left]. eapply BaseOk_val; eauto.
  - intros n bv w names displays w' vs v [Hd _] _ _ HB _ Hc Hv. split; [exact Hd|]. intros u E. injection E as <-. apply without_dim_ok.
    eapply create_elements_ok; [|exact Hc|exact Hv]. eapply BaseOk_val; eauto.
  - intros n e [Hd Hv] _ _. split; auto.
  - intros n nb e e' [Hd Hv] [Hdb Hvb] He He' _ Hlv. split; split; auto.
  - intros n f cs [Hd Hv] _ _ _ Hu Hc. split; [exact Hd|]. intros v E. injection E as <-. split; [exact Hu|].
    intros c Hin. destruct (Hc c Hin) as (m & e & w & [Hm _] & Hp & He). exists e, w. split; [|exact He].
    rewrite Hp in Hm. destruct Hm as [Hm|Hm]; [discriminate|exact Hm].
  - intros n r fs [Hd Hv] _ _ Hr Hs Hf. split; [exact Hd|]. intros v E. injection E as <-. cbn. constructor; [cbn [ir_fields]|exact Hs].
    intros f Hin. destruct (Hf f Hin) as (m & [_ Hm] & _ & Hp). exact (Hm _ Hp).
  - intros n c l s xs [Hd Hv] _ _ Hr _ Hf. split; [exact Hd|]. intros v E. injection E as <-. cbn. constructor.
    intros f Hin. destruct (Hf f Hin) as (m & [_ Hm] & _ & Hp). exact (Hm _ Hp).
  - intros n p s xs [Hd Hv] _ _ Hr _ Hz Hf. split; [exact Hd|]. intros v E. injection E as <-. cbn.
    destruct (Hv _ Hr) as (H1 & H2 & H3 & _). split; [exact H1|]. split; [exact H2|]. split; [exact H3|]. split; [intros _; exists s; auto|]. cbn [ip_rcs].
    intros f Hin. destruct (Hf f Hin) as (m & [_ Hm] & _ & Hp). exact (Hm _ Hp).
Qed.

Lemma resolves_ok d ws i : Resolves d ws i -> forall p, In p (idv_periphs i) -> PerOk (sdv_periphs d) p.
Proof.
  intros (fuel & ps & H & ->) p Hp. cbn [idv_periphs] in Hp.
  destruct (resolve_nodes (Declared (sdv_periphs d)) (NodeOk (sdv_periphs d)) (NodeOk_closed _) fuel _ _ _ (fun q Hq => Hq) H) as [_ Hn].
  destruct (Hn p Hp) as (m & [_ Hm] & _ & Hv). exact (Hm _ Hv).
Qed.
Lemma RcOk_below ps l path chain x : IBelow l path chain x -> (forall y, In y l -> RcOk ps y) -> RcOk ps x.
Proof.
  induction 1 as [l x H|l c ch path chain x H HB IH]; intros Hl; auto. apply IH. specialize (Hl _ H). now inversion Hl.
Qed.
Lemma below_pbelow l o x : Below l o x -> exists path, PBelow l path x.
Proof.
  induction 1 as [l r Hin|l c ch Hin|l c ch o x Hin HB (path & IH)]; eexists; [apply (PB_here l (Reg r) Hin)|apply (PB_here l (Clu c ch) Hin)|].
  eapply PB_deep; eauto.
Qed.
Lemma ev_align_fin ws lsb msb l r : EvAlign ws (msb - lsb + 1) l r -> exists w, fin_enum_values l lsb msb = (w, Ok r).
Proof.
  induction 1 as [|v z l r Hz Hf HA (w & IH)|v z l r Hz Hf Hw HA (w & IH)]; cbn [fin_enum_values]; [eexists; reflexivity| |]; rewrite Hz; unfold ev_fits in Hf.
  - replace (_ || _) with false by lia. rewrite IH. eexists. reflexivity.
  - replace (_ || _) with true by lia. rewrite IH. eexists. reflexivity.
Qed.

(** [Container d f c]: the container [c] of the finished field [f] is the outcome of processing the enumerated values of a container
    [e] written somewhere in the description *)
Definition FromDeclared (d : svd_device) (f : field) (c : evc) : Prop :=
  exists e ic w w', DeclaredEvc (sdv_periphs d) e /\ create_evc e (fb_lsb (f_b f)) (fb_msb (f_b f)) = (w, Ok ic) /\ fin_enum_values (ievc_evs ic) (fb_lsb (f_b f)) (fb_msb (f_b f)) = (w', Ok (evc_evs c)) /\
  evc_name c = ievc_name ic /\ evc_header c = ievc_header ic /\ evc_usage c = ievc_usage ic.

Lemma device_fields d ws dev p o r f : Processes d ws dev -> In p (dv_periphs dev) -> Below (pr_rcs p) o (Reg r) -> In f (r_fields r) ->
  usages_ok (map evc_usage (f_evcs f)) /\ forall c, In c (f_evcs f) -> FromDeclared d f c.
Proof.
  intros H Hp Hb Hf. destruct (processes_inv _ _ _ H) as (i & w1 & w2 & HR & Hfin & ->). assert (HO := resolves_ok _ _ _ HR).
  apply finalize_image in Hfin. destruct Hfin as (_ & ys & HA & HP).
  destruct (PersAlign_in _ _ _ _ HA p) as (ip & Hip & HI). { eapply Permutation_in; [symmetry; exact HP|exact Hp]. }
  inversion HI as [? ? zs _ _ HAl HPz]; subst. destruct (below_pbelow _ _ _ Hb) as (path & Hpb).
  destruct (image_path _ _ _ _ _ _ _ HAl HPz Hpb) as (encl & x & HIB & HIm).
  assert (Hx := RcOk_below _ _ _ _ _ HIB (proj2 (proj2 (proj2 (proj2 (HO _ Hip)))))).
  inversion HIm as [? q q' gs _ _ _ HFA HPg|]; subst. inversion Hx as [? Hx' _|]; subst.
  destruct (FieldsAlign_in _ _ _ _ _ HFA f) as (g & Hg & HFI). { eapply Permutation_in; [symmetry; exact (proj1 HPg)|exact Hf]. }
  destruct (Hx' g Hg) as [Hu Hc]. destruct (fi_evcs _ _ _ _ _ HFI) as (cs & Hperm & HF2).
  assert (Eu : map evc_usage cs = map ievc_usage (if_evcs g)).
  { clear -HF2. induction HF2 as [|a b l l' Hab HF IH]; cbn; [reflexivity|]. f_equal; auto. apply Hab. }
  split.
  - rewrite <- Eu in Hu. assert (Hp' := Permutation_map evc_usage Hperm). set (us := map evc_usage cs) in *. set (vs := map evc_usage (f_evcs f)) in *.
    destruct Hu as [E|[[u E]|[E|E]]]; rewrite E in Hp'; unfold usages_ok.
    + left. now apply Permutation_nil.
    + right. left. exists u. now apply Permutation_length_1_inv.
    + right. right. apply Permutation_length_2_inv in Hp'. tauto.
    + right. right. apply Permutation_length_2_inv in Hp'. tauto.
  - intros c Hin. assert (Hin' : In c cs) by (eapply Permutation_in; [symmetry; exact Hperm|exact Hin]).
    assert (Hex : exists ic, In ic (if_evcs g) /\ EvcImage w2 (fb_msb (if_b g) - fb_lsb (if_b g) + 1) ic c).
    { clear -HF2 Hin'. induction HF2 as [|a b l l' Hab HF IH]; [destruct Hin'|]. destruct Hin' as [<-|Hin'].
      - exists a. split; [now left|exact Hab].
      - destruct (IH Hin') as (ic & ? & ?). exists ic. split; [now right|assumption]. }
    destruct Hex as (ic & Hic & En & Eh & Eus & HEA). destruct (Hc ic Hic) as (e & w & He & Hce). apply ev_align_fin in HEA as (w' & Hw').
    exists e, ic, w, w'. rewrite (fi_lsb _ _ _ _ _ HFI), (fi_msb _ _ _ _ _ HFI). auto 8.
Qed.

(** ** C40 *)
Lemma field_containers_sorted d ws dev p o r f : Processes d ws dev -> In p (dv_periphs dev) -> Below (pr_rcs p) o (Reg r) -> In f (r_fields r) ->
  StronglySorted (leP evc_le) (f_evcs f).
Proof.
  intros H Hp Hb Hf. destruct (processes_good _ _ _ H) as [G _]. destruct (per_below _ _ _ _ G Hp Hb) as (b & Hg & _). inversion Hg as [? ? _ _ _ _ (_ & _ & _ & HF)|]; subst.
  rewrite Forall_forall in HF. apply (HF f Hf).
Qed.
Theorem C40_read_write_containers : forall d ws dev, Processes d ws dev ->
  forall p o r f, In p (dv_periphs dev) -> Below (pr_rcs p) o (Reg r) -> In f (r_fields r) ->
  f_evcs f = [] \/ (exists c, f_evcs f = [c]) \/
  (exists c1 c2, f_evcs f = [c1; c2] /\ evc_usage c1 = U_READ /\ evc_usage c2 = U_WRITE).
Proof.
  intros d ws dev H p o r f Hp Hb Hf. destruct (device_fields _ _ _ _ _ _ _ H Hp Hb Hf) as [Hu _].
  destruct (f_evcs f) as [|c1 [|c2 [|c3 l]]] eqn:Ef; [auto|eauto| |].
  - right. right. exists c1, c2. split; [reflexivity|]. assert (Hs := field_containers_sorted _ _ _ _ _ _ _ H Hp Hb Hf). rewrite Ef in Hs. apply StronglySorted_inv in Hs as [_ Hs]. inversion Hs as [|? ? Hs1 _]; subst.
    destruct Hu as [E|[[u E]|[E|E]]]; cbn in E; try discriminate; injection E as E1 E2; auto. unfold leP, evc_le, evc_key in Hs1. rewrite E1, E2 in Hs1. discriminate.
  - destruct Hu as [E|[[u E]|[E|E]]]; cbn in E; discriminate.
Qed.

(** every container has the name and header name of a container written in the description and its usage, read-write if none is
    stated *)
Theorem C40_container_usage : forall d ws dev, Processes d ws dev ->
  forall p o r f c, In p (dv_periphs dev) -> Below (pr_rcs p) o (Reg r) -> In f (r_fields r) -> In c (f_evcs f) ->
  exists e, DeclaredEvc (sdv_periphs d) e /\ evc_name c = sevc_name e /\ evc_header c = sevc_header e /\
    (forall u, sevc_usage e = Some u -> evc_usage c = u) /\ (sevc_usage e = None -> evc_usage c = U_READ_WRITE).
Proof.
  intros d ws dev H p o r f c Hp Hb Hf Hc. destruct (device_fields _ _ _ _ _ _ _ H Hp Hb Hf) as [_ HD].
  destruct (HD c Hc) as (e & ic & w & w' & He & H1 & _ & -> & -> & ->). exists e. split; [exact He|].
  unfold create_evc in H1. apply bind_ok in H1 as (w1 & x & w2 & _ & H1 & _). injection H1 as _ <-. cbn.
  split; [reflexivity|]. split; [reflexivity|]. split; [intros u ->; reflexivity|intros ->; reflexivity].
Qed.

(** ** C02 at the level of devices *)
Theorem C02_device_values : forall d ws dev, Processes d ws dev ->
  forall p o r f c, In p (dv_periphs dev) -> Below (pr_rcs p) o (Reg r) -> In f (r_fields r) -> In c (f_evcs f) ->
  StronglySorted Z.lt (map ev_value (evc_evs c)) /\ NoDup (map ev_value (evc_evs c)) /\
  (forall v, In v (evc_evs c) -> 0 <= ev_value v <= 2 ^ f_bit_width f - 1).
Proof.
  intros d ws dev H p o r f c Hp Hb Hf Hc. destruct (device_fields _ _ _ _ _ _ _ H Hp Hb Hf) as [_ HD].
  destruct (HD c Hc) as (e & ic & w & w' & _ & H1 & H2 & _).
  destruct (processes_good _ _ _ H) as [G _]. destruct (per_below _ _ _ _ G Hp Hb) as (b & Hg & _). inversion Hg as [? ? _ _ _ _ (_ & _ & _ & HF)|]; subst.
  rewrite Forall_forall in HF. destruct (HF f Hf) as (_ & _ & -> & _). exact (C02_values_distinct_ascending_in_range _ _ _ _ _ _ _ H1 H2).
Qed.

(** ** C01, C03 at the level of devices *)
(** every container of an accepted device stems from a container written in the description, processed for the bits of the field
    ([ignored]: some entry was ignored as a duplicate).  Don't-care literals: all matching integers that fit in the field, under the right
    names, if there is no default entry. *)
Theorem C01_device_wildcards : forall d ws dev, Processes d ws dev ->
  forall p o r f c, In p (dv_periphs dev) -> Below (pr_rcs p) o (Reg r) -> In f (r_fields r) -> In c (f_evcs f) ->
  exists e w ic, DeclaredEvc (sdv_periphs d) e /\ create_evc e (fb_lsb (f_b f)) (fb_msb (f_b f)) = (w, Ok ic) /\
  ((forall n, ~ In (W_EnumDupName n) w) -> (forall n z, ~ In (W_EnumDupValue n z) w) -> (forall q, In q (sevc_evs e) -> sev_default q <> Some true) ->
   forall q pre s, In q (sevc_evs e) -> sev_value q = Some (pre ++ s)%string -> bin_prefix pre -> wild_literal s ->
   lower (sev_name q) <> "reserved" -> has_dont_care s ->
   forall z, matches s z -> 0 <= z <= 2 ^ f_bit_width f - 1 -> In (mk_ev (sev_name q ++ "_" ++ str_of_Z z) (sev_descr q) z) (evc_evs c)).
Proof.
  intros d ws dev H p o r f c Hp Hb Hf Hc. destruct (device_fields _ _ _ _ _ _ _ H Hp Hb Hf) as [_ HD].
  destruct (HD c Hc) as (e & ic & w & w' & He & H1 & H2 & _). exists e, w, ic. split; [exact He|]. split; [exact H1|].
  intros Hn Hv Hd q pre s Hq Hqv Hpre Hw Hr Hdc z Hz Hfit.
  destruct (C01_wildcard_container _ _ _ _ _ H1 Hn Hv Hd q pre s Hq Hqv Hpre Hw Hr Hdc) as [Hin _]. specialize (Hin z Hz).
  destruct (processes_good _ _ _ H) as [G _]. destruct (per_below _ _ _ _ G Hp Hb) as (b & Hg & _). inversion Hg as [? ? _ _ _ _ (_ & _ & _ & HF)|]; subst.
  rewrite Forall_forall in HF. destruct (HF f Hf) as (_ & _ & Ew & _). rewrite Ew in Hfit. unfold f_msb, f_lsb in Hfit.
  apply fin_enum_values_ok in H2 as (-> & _). apply in_map_iff. eexists. split; [|apply filter_In; split; [exact Hin|]]; [reflexivity|].
  cbn [iev_value]. lia.
Qed.
(** a default entry (without a value of its own, nothing ignored) completes the container to all values of the field *)
Theorem C03_device_default : forall d ws dev, Processes d ws dev ->
  forall p o r f c, In p (dv_periphs dev) -> Below (pr_rcs p) o (Reg r) -> In f (r_fields r) -> In c (f_evcs f) ->
  exists e w ic, DeclaredEvc (sdv_periphs d) e /\ create_evc e (fb_lsb (f_b f)) (fb_msb (f_b f)) = (w, Ok ic) /\
  ((forall n, ~ In (W_EnumDupName n) w) -> (forall n z, ~ In (W_EnumDupValue n z) w) ->
   forall q, In q (sevc_evs e) -> sev_default q = Some true -> lower (sev_name q) <> "reserved" -> sev_value q = None ->
   map ev_value (evc_evs c) = zrange 0 (2 ^ f_bit_width f) /\
   (forall v, In v (evc_evs c) ->
     (exists u t w zs, In u (sevc_evs e) /\ sev_default u <> Some true /\ sev_value u = Some t /\
        convert_enumerated_value t = (w, Ok zs) /\ In (ev_value v) zs /\
        ev_name v = wildcard_name (sev_name u) t (ev_value v) /\ ev_descr v = sev_descr u) \/
     (ev_name v = (sev_name q ++ "_" ++ str_of_Z (ev_value v))%string /\ ev_descr v = sev_descr q))).
Proof.
  intros d ws dev H p o r f c Hp Hb Hf Hc. destruct (device_fields _ _ _ _ _ _ _ H Hp Hb Hf) as [_ HD].
  destruct (HD c Hc) as (e & ic & w & w' & He & H1 & H2 & _). exists e, w, ic. split; [exact He|]. split; [exact H1|].
  intros Hn Hv q Hq Hqd Hr Hqv.
  destruct (C03_default_completes _ _ _ _ _ _ _ _ H1 H2 Hn Hv Hq Hqd Hr Hqv) as (Hall & _ & _ & Hor). split; [|exact Hor].
  destruct (processes_good _ _ _ H) as [G _]. destruct (per_below _ _ _ _ G Hp Hb) as (b & Hg & _). inversion Hg as [? ? _ _ _ _ (_ & _ & _ & HF)|]; subst.
  rewrite Forall_forall in HF. destruct (HF f Hf) as (_ & _ & Ew & _). rewrite Ew. exact Hall.
Qed.

(** ** C14 *)
Definition AllPairs {A} (R : A -> A -> Prop) (l : list A) : Prop := forall l1 x l2 y l3, l = l1 ++ x :: l2 ++ y :: l3 -> R x y.
Lemma AllPairs_sorted {A} (R : A -> A -> Prop) l : StronglySorted R l -> AllPairs R l.
Proof.
  intros H l1 x l2 y l3 ->. induction l1 as [|a l1 IH]; cbn in H; apply StronglySorted_inv in H as [H HF]; auto.
  rewrite Forall_forall in HF. apply HF. apply in_elt.
Qed.
Lemma per_le_strict l : StronglySorted (leP per_le) l -> NoDup (map (fun p => pb_name (pr_b p)) l) -> StronglySorted per_before l.
Proof.
  induction 1 as [|x l H IH HF]; intros Hn; [constructor|]. cbn in Hn. inversion Hn as [|? ? Hni Hn' E]; subst. constructor; auto.
  rewrite Forall_forall in *. intros y Hy. specialize (HF y Hy). unfold leP, per_le in HF. apply pair_le_before in HF. unfold per_key in HF. cbn [fst snd] in HF.
  unfold per_before. destruct HF as [HF|[E [HF|E2]]]; auto. exfalso. apply Hni. apply in_map_iff. exists y. auto.
Qed.
(** [AllPairs R l]: any earlier element of [l] is related to any later one *)
Theorem C14_sorted : forall d ws dev, Processes d ws dev ->
  AllPairs per_before (dv_periphs dev) /\
  forall p, In p (dv_periphs dev) ->
    AllPairs (fun a b => ab_offset a <= ab_offset b) (pb_abs (pr_b p)) /\
    AllPairs (fun a b => int_value a <= int_value b) (pb_ints (pr_b p)) /\
    (forall s, Siblings (pr_rcs p) s -> AllPairs rc_before s) /\
    (forall o r, Below (pr_rcs p) o (Reg r) ->
      AllPairs (fun f g => fb_lsb (f_b f) <= fb_lsb (f_b g)) (r_fields r) /\
      forall f c, In f (r_fields r) -> In c (f_evcs f) -> AllPairs (fun v w => ev_value v < ev_value w) (evc_evs c)).
Proof.
  intros d ws dev H. destruct (processes_good _ _ _ H) as [G _]. split.
  { apply AllPairs_sorted, per_le_strict; [exact (gd_sorted _ G)|exact (gd_names _ G)]. }
  intros p Hp. assert (HPO : sorted_by ab_offset (pb_abs (pr_b p)) /\ sorted_by int_value (pb_ints (pr_b p))).
  { destruct (processes_inv _ _ _ H) as (i & w1 & w2 & HR & Hfin & ->). assert (HO := resolves_ok _ _ _ HR).
    apply finalize_image in Hfin. destruct Hfin as (_ & ys & HA & HP).
    destruct (PersAlign_in _ _ _ _ HA p) as (ip & Hip & HI). { eapply Permutation_in; [symmetry; exact HP|exact Hp]. }
    inversion HI as [? ? zs E _ _ _]; subst. rewrite E. destruct (HO _ Hip) as (? & ? & _). auto. }
  destruct HPO as [Ha Hi]. split; [now apply AllPairs_sorted|]. split; [now apply AllPairs_sorted|]. split.
  - intros s Hs. destruct (per_siblings _ _ _ G Hp Hs) as (b & [S _] & _). apply AllPairs_sorted.
    eapply StronglySorted_impl; [|exact S]. intros x y. apply rc_le_before.
  - intros o r Hb. split.
    + destruct (per_below _ _ _ _ G Hp Hb) as (b & Hg & _). inversion Hg as [? ? _ _ _ _ (_ & S & _)|]; subst. now apply AllPairs_sorted.
    + intros f c Hf Hc. destruct (C02_device_values d ws dev H p o r f c Hp Hb Hf Hc) as [S _].
      intros l1 x l2 y l3 E. rewrite E, map_app in S. cbn [map] in S. rewrite map_app in S. exact (AllPairs_sorted _ _ S _ _ _ _ _ eq_refl).
Qed.

(** witness: a field with a read container using a don't-care literal and a write container with a default entry; two address blocks
    and two interrupts given in descending order *)
Definition enum_sample : svd_device :=
  s_dev [ mk_sper nodim noprops "A" None None None None None None None None 4096 [mk_sab 256 256 AB_REGISTERS None; mk_sab 0 256 AB_REGISTERS None]
            [mk_int "I2" None 7; mk_int "I1" None 3]
            [ s_reg "R" 0 [ s_field "G" (Some 8) (Some 9) None [] None;
                            s_field "F" (Some 0) (Some 1) None
              [ mk_sevc (Some "rd"%string) None (Some U_READ) [s_ev "c" "3"; s_ev "a" "#0x"] None;
                mk_sevc (Some "wr"%string) None (Some U_WRITE) [s_ev "on" "1"; mk_sev "rest" None None (Some true)] None ] None ] None None ] None ].
Definition enum_result := process_device 20 enum_sample.
Example enum_sample_accepted : Processes enum_sample (fst enum_result) (the_device enum_result).
Proof. exists 20%nat. unfold the_device. vm_compute. reflexivity. Qed.
Example C01_C03_C14_C40_nonvacuous : map (fun p => (map ab_offset (pb_abs (pr_b p)), map int_value (pb_ints (pr_b p)),
   map (fun r => map (fun f => (fb_name (f_b f), map (fun c => (evc_usage c, map (fun v => (ev_name v, ev_value v)) (evc_evs c))) (f_evcs f))) (r_fields r)) (pr_regs p)))
   (dv_periphs (the_device enum_result)) =
  [([0; 256], [3; 7], [[("F", [(U_READ, [("a_0", 0); ("a_1", 1); ("c", 3)]); (U_WRITE, [("rest_0", 0); ("on", 1); ("rest_2", 2); ("rest_3", 3)])]); ("G", [])]])]%string.
Proof. vm_compute. reflexivity. Qed.
Print Assumptions C14_sorted.
Print Assumptions C40_read_write_containers.
Print Assumptions C40_container_usage.
Print Assumptions C01_device_wildcards.
Print Assumptions C02_device_values.
Print Assumptions C03_device_default.
