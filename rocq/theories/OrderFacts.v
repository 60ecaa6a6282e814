(** * OrderFacts: what a description stands for does not depend on the order of siblings (C53). *)
From Verif Require Import Base PyStr PyInt Types DimModel EnumModel ElemModel FinalModel ConvertModel ResolveModel ProcessModel SpecProcess SpecDim SpecElem SpecEnum SpecDevice SpecImage SpecDeclared SpecExpand SpecAccept SpecAgain SpecOrder.
From Verif Require Import TextFacts DimFacts FinalFacts ElemFacts ImageFacts ResolveInv DescribeFacts BuildOk LookupOk AcceptFacts FinalAccept AgainFacts AgainExpand OrderFinal PropsDim PropsElem PropsDevice PropsResolve PropsTerm PropsAccept.
From Coq Require Import ZifyBool ZifyNat ZifyN.

(** ** Substitution, sorted lists *)
Lemma no_straddle ph a s : ph = "%s" \/ ph = "[%s]" -> (forall x y, a <> (x ++ ph ++ y)%string) -> forall k, (k < String.length a)%nat -> startswith ph (sdrop k (a ++ ph ++ s)) = false.
Proof.
  intros Hph. induction a as [|c a IH]; intros Hno k Hk; [cbn in Hk; lia|]. destruct k as [|k].
  - cbn [sdrop]. destruct (startswith ph (String c a ++ ph ++ s)) eqn:E; [exfalso|reflexivity]. assert (Hs : forall y, String c a <> (ph ++ y)%string) by (intros y; exact (Hno "" y)). clear IH Hno Hk.
    destruct Hph as [-> | ->]; apply startswith_spec in E as (r & E); cbn [append] in E; injection E as Ec E; subst c.
    + destruct a as [|c a]; cbn [append] in E; [discriminate|]. injection E as -> _. exact (Hs a eq_refl).
    + destruct a as [|c a]; cbn [append] in E; [discriminate|]. injection E as -> E. destruct a as [|c a]; cbn [append] in E; [discriminate|]. injection E as -> E. destruct a as [|c a]; cbn [append] in E; [discriminate|]. injection E as -> _. exact (Hs a eq_refl).
  - cbn [sdrop append]. apply IH; [|cbn in Hk; lia]. intros x y ->. exact (Hno (String c x) y eq_refl).
Qed.
Lemma subst_fun ph ix s r : ph = "%s" \/ ph = "[%s]" -> Subst ph ix s r -> r = replace ph ix s.
Proof.
  intros Hph H. assert (Hne : ph <> "") by (destruct Hph; subst; discriminate). induction H as [s Hno|a s r Hno _ IH].
  - symmetry. apply replace_none. apply contains_false_spec. intros x y. apply Hno.
  - rewrite (replace_prefix ph ix a (ph ++ s)) by (now apply no_straddle). rewrite replace_hit by exact Hne. now rewrite IH.
Qed.
Lemma listed_fun {A} (key : A -> Z) l s s' : Listed key l s -> Listed key l s' -> s' = s.
Proof.
  intros (P1 & S1 & F1) (P2 & S2 & F2). apply (listed_sorted key s S1). split; [eapply Permutation_trans; [apply Permutation_sym, P1|exact P2]|]. split; [exact S2|]. intros k. now rewrite F2, F1.
Qed.
Lemma block_fun l m m' : Forall2 SameBlock l m -> Forall2 SameBlock l m' -> m' = m.
Proof.
  intros H. revert m'. induction H as [|a b l m (E1 & E2 & E3 & E4) HF IH]; intros m' H'; inversion H' as [|? b' ? m0 (D1 & D2 & D3 & D4) HF']; subst; [reflexivity|]. f_equal; [|exact (IH _ HF')].
  destruct b, b'. cbn in *. congruence.
Qed.

(** ** One element *)
(** [Head]: the values agree but for their children *)
Definition Head (v v' : processed) : Prop :=
  match v, v' with
  | PrPer p, PrPer q => ip_b q = ip_b p /\ ip_props q = ip_props p /\ ip_dim q = ip_dim p
  | PrRc (IReg r), PrRc (IReg q) => ir_b q = ir_b r /\ ir_props q = ir_props r /\ ir_dim q = ir_dim r
  | PrRc (IClu c _), PrRc (IClu d _) => ic_b d = ic_b c /\ ic_props d = ic_props c /\ ic_dim d = ic_dim c
  | PrFld f, PrFld g => if_b g = if_b f /\ if_access g = if_access f /\ if_dim g = if_dim f
  | _, _ => False
  end.
Definition HeadO (b b' : option processed) : Prop := match b, b' with None, None => True | Some v, Some v' => Head v v' | _, _ => False end.
Lemma head_dim v v' : Head v v' -> processed_dim v' = processed_dim v.
Proof. destruct v as [p|[r|c l]|f], v' as [p'|[r'|c' l']|f']; cbn; try tauto; intros (_ & _ & H); exact H. Qed.
Lemma head_display v v' : Head v v' -> processed_display v' = processed_display v.
Proof. destruct v as [p|[r|c l]|f], v' as [p'|[r'|c' l']|f']; cbn; try tauto; intros (H & _); now rewrite H. Qed.
Lemma head_name v v' : Head v v' -> processed_name v' = processed_name v.
Proof. destruct v as [p|[r|c l]|f], v' as [p'|[r'|c' l']|f']; cbn; try tauto; intros (H & _); now rewrite H. Qed.
Lemma eff_head e b b' : HeadO b b' -> eff_dim e b' = eff_dim e b /\ eff_inc e b' = eff_inc e b /\ eff_index e b' = eff_index e b /\ eff_display e b' = eff_display e b.
Proof.
  intros H. destruct b as [v|], b' as [v'|]; cbn in H; try tauto. unfold eff_dim, eff_inc, eff_index, eff_display. rewrite (head_dim _ _ H), (head_display _ _ H). auto.
Qed.
Lemma bits_head b b' : HeadO b b' -> bv_bits b' = bv_bits b.
Proof. destruct b as [[p|[r|c l]|f]|], b' as [[p'|[r'|c' l']|f']|]; cbn; try tauto. intros (H & _). now rewrite H. Qed.
Lemma bits_fun f bv m l m' l' : Bits f (bv_bits bv) m l -> Bits f (bv_bits bv) m' l' -> m = m' /\ l = l'.
Proof.
  assert (E : bv_bits bv = option_map (fun b => (fb_msb (if_b b), fb_lsb (if_b b))) (fld_base_of bv)) by (destruct bv as [[p|[r|c k]|g]|]; reflexivity). rewrite E.
  intros H1 H2. apply (proj2 (C09_field_bits f _ "" m l)) in H1 as (ws & g & H1 & <- & <-). apply (proj2 (C09_field_bits f _ "" m' l')) in H2 as (ws' & g' & H2 & <- & <-). rewrite H1 in H2. injection H2 as _ <-. auto.
Qed.
Lemma head_per b b' : HeadO b b' -> option_map ip_b (per_base_of b') = option_map ip_b (per_base_of b) /\ option_map ip_props (per_base_of b') = option_map ip_props (per_base_of b).
Proof. destruct b as [[p|[r|c l]|f]|], b' as [[p'|[r'|c' l']|f']|]; cbn; try tauto. intros (H1 & H2 & _). now rewrite H1, H2. Qed.
Lemma head_clu b b' : HeadO b b' -> option_map ic_b (clu_base_of b') = option_map ic_b (clu_base_of b) /\ option_map ic_props (clu_base_of b') = option_map ic_props (clu_base_of b).
Proof. destruct b as [[p|[r|c l]|f]|], b' as [[p'|[r'|c' l']|f']|]; cbn; try tauto. intros (H1 & H2 & _). now rewrite H1, H2. Qed.
Lemma head_reg b b' : HeadO b b' -> option_map ir_b (reg_base_of b') = option_map ir_b (reg_base_of b) /\ option_map ir_props (reg_base_of b') = option_map ir_props (reg_base_of b).
Proof. destruct b as [[p|[r|c l]|f]|], b' as [[p'|[r'|c' l']|f']|]; cbn; try tauto. intros (H1 & H2 & _). now rewrite H1, H2. Qed.
Lemma head_fld b b' : HeadO b b' -> option_map if_b (fld_base_of b') = option_map if_b (fld_base_of b) /\ option_map if_access (fld_base_of b') = option_map if_access (fld_base_of b).
Proof. destruct b as [[p|[r|c l]|f]|], b' as [[p'|[r'|c' l']|f']|]; cbn; try tauto. intros (H1 & H2 & _). now rewrite H1, H2. Qed.
Lemma props_from_fun own b r r' : PropsFrom own b r -> PropsFrom own b r' -> r' = r.
Proof. intros (A1 & A2 & A3 & A4 & A5) (B1 & B2 & B3 & B4 & B5). destruct r as [m1 m2 m3 m4 m5], r' as [n1 n2 n3 n4 n5]. cbn [op_size op_access op_prot op_rv op_rm] in *. rewrite B1, B2, B3, B4, B5, A1, A2, A3, A4, A5. reflexivity. Qed.

Lemma value_fun e b b' k v v' : HeadO b b' -> Attributes e b v -> Attributes e b' v' -> Placed e b k v -> Placed e b' k v' ->
  processed_name v' = processed_name v -> processed_display v' = processed_display v -> processed_dim v' = processed_dim v -> Head v v'.
Proof.
  intros HB HA HA' HP HP' En Ed Em.
  destruct e as [|p|[q|c l]|f|ev], v as [x|[x|x xs]|x]; try (cbn in HA; contradiction); destruct v' as [y|[y|y ys]|y]; try (cbn in HA'; contradiction); cbn [Attributes Placed processed_name processed_display processed_dim] in *.
  - destruct (head_per _ _ HB) as [K1 K2]. rewrite K1, K2 in HA'. clear K1 K2. set (bb := option_map ip_b (per_base_of b)) in *. set (bp := option_map ip_props (per_base_of b)) in *. clearbody bb bp.
    destruct HA as (A1 & A2 & A3 & A4 & A5 & A6 & A7 & A8 & A9 & A10 & A11 & A12), HA' as (B1 & B2 & B3 & B4 & B5 & B6 & B7 & B8 & B9 & B10 & B11 & B12). cbn [Head]. split; [|split; [exact (props_from_fun _ _ _ _ A12 B12)|exact Em]].
    assert (Eb : pb_abs (ip_b y) = pb_abs (ip_b x)). { destruct (sp_abs p) as [|a0 l0] eqn:Ea; [now rewrite B9, A9|]. destruct A10 as (l1 & P1 & P2); [discriminate|]. destruct B10 as (l2 & Q1 & Q2); [discriminate|]. rewrite (block_fun _ _ _ P1 Q1) in Q2. exact (listed_fun _ _ _ _ P2 Q2). }
    assert (Ei := listed_fun _ _ _ _ A11 B11). destruct (ip_b x) as [m1 m2 m3 m4 m5 m6 m7 m8 m9 m10 m11 m12], (ip_b y) as [n1 n2 n3 n4 n5 n6 n7 n8 n9 n10 n11 n12]. cbn [pb_name pb_version pb_descr pb_altper pb_group pb_prepend pb_append pb_header pb_disable pb_base pb_abs pb_ints] in *.
    rewrite En, B1, B2, B3, B4, B5, B6, B7, B8, HP', Eb, Ei, A1, A2, A3, A4, A5, A6, A7, A8, HP. reflexivity.
  - destruct (head_reg _ _ HB) as [K1 K2]. rewrite K1, K2 in HA'. clear K1 K2. set (bb := option_map ir_b (reg_base_of b)) in *. set (bp := option_map ir_props (reg_base_of b)) in *. clearbody bb bp.
    destruct HA as (A1 & A2 & A3 & A4 & A5 & A6 & A7 & A8), HA' as (B1 & B2 & B3 & B4 & B5 & B6 & B7 & B8). cbn [Head]. split; [|split; [exact (props_from_fun _ _ _ _ A8 B8)|exact Em]].
    destruct (ir_b x) as [m1 m2 m3 m4 m5 m6 m7 m8 m9 m10], (ir_b y) as [n1 n2 n3 n4 n5 n6 n7 n8 n9 n10]. cbn [rb_name rb_display rb_descr rb_altgroup rb_altreg rb_offset rb_dtype rb_mwv rb_wc rb_ra] in *. rewrite En, Ed, B1, B2, B3, B4, B5, B6, B7, HP', A1, A2, A3, A4, A5, A6, A7, HP. reflexivity.
  - destruct (head_clu _ _ HB) as [K1 K2]. rewrite K1, K2 in HA'. clear K1 K2. set (bb := option_map ic_b (clu_base_of b)) in *. set (bp := option_map ic_props (clu_base_of b)) in *. clearbody bb bp.
    destruct HA as (A1 & A2 & A3 & A4), HA' as (B1 & B2 & B3 & B4). cbn [Head]. split; [|split; [exact (props_from_fun _ _ _ _ A4 B4)|exact Em]].
    destruct (ic_b x) as [m1 m2 m3 m4 m5], (ic_b y) as [n1 n2 n3 n4 n5]. cbn [cb_name cb_descr cb_altclu cb_header cb_offset] in *. rewrite En, B1, B2, B3, HP', A1, A2, A3, HP. reflexivity.
  - destruct (head_fld _ _ HB) as [K1 K2]. rewrite K1 in HA'. rewrite (bits_head _ _ HB) in HP'. destruct HP as (m & lo & P1 & P2 & P3), HP' as (m' & lo' & Q1 & Q2 & Q3). destruct (bits_fun _ _ _ _ _ _ P1 Q1) as [<- <-].
    destruct HA as (A1 & A2 & A3 & A4 & A5), HA' as (B1 & B2 & B3 & B4 & B5). cbn [Head]. split; [|split; [|exact Em]].
    + destruct (if_b x) as [m1 m2 m3 m4 m5 m6 m7], (if_b y) as [n1 n2 n3 n4 n5 n6 n7]. cbn [fb_name fb_descr fb_lsb fb_msb fb_mwv fb_wc fb_ra] in *. rewrite En, B1, B2, B3, B4, Q2, Q3, A1, A2, A3, A4, P2, P3. reflexivity.
    + rewrite B5, A5. unfold inh. destruct (fld_base_of b) as [g|], (fld_base_of b') as [g'|]; cbn in K2; try discriminate; [|reflexivity]. injection K2 as ->. reflexivity.
Qed.

(** the dimIndex of a list is readable *)
Definition IndexFine (e : parsed) (b : option processed) : Prop :=
  has_placeholder (parsed_name e) -> is_array (parsed_name e) \/ forall n, eff_dim e b = Some n -> exists l, Index n (eff_index e b) l /\ Z.of_nat (length l) = n.
Lemma forall2_nth {A B} (R : A -> B -> Prop) l : forall m, length l = length m -> (forall k a b, nth_error l k = Some a -> nth_error m k = Some b -> R a b) -> Forall2 R l m.
Proof.
  induction l as [|a l IH]; intros [|b m] E H; cbn in E; try discriminate; constructor; [exact (H 0%nat a b eq_refl eq_refl)|]. apply IH; [lia|]. intros k x y. exact (H (Datatypes.S k) x y).
Qed.
Lemma many_placeholder e b vs tv : Described e b vs (Some tv) -> has_placeholder (parsed_name e).
Proof. intros H. inversion H as [|? ? n idx ph D1 D2 D3 D4 D5]; subst. destruct D5 as [(K & _)|(_ & _ & K & _)]; [now apply array_placeholder|exact K]. Qed.
Lemma described_fun e b b' vs tv vs' tv' : HeadO b b' -> IndexFine e b -> Described e b vs tv -> Described e b' vs' tv' -> Forall2 Head vs vs' /\ HeadO tv tv'.
Proof.
  intros HB HI D D'. destruct (eff_head e _ _ HB) as (E1 & E2 & E3 & E4).
  inversion D as [v D1 D2 D3 D4 D5 D6 D7|vs0 t n idx ph D1 D2 D3 D4 D5 D6 D7 D8 D9 D10 D11]; inversion D' as [v' F1 F2 F3 F4 F5 F6 F7|vs0' t' n' idx' ph' F1 F2 F3 F4 F5 F6 F7 F8 F9 F10 F11]; subst.
  - split; [|exact Logic.I]. constructor; [|constructor]. apply (value_fun e b b' 0); auto; [congruence|congruence|]. rewrite F6, D6. unfold dim_of_base. now rewrite E1, E2, E3.
  - exfalso. apply D1. exact (many_placeholder _ _ _ _ D').
  - exfalso. apply F1. exact (many_placeholder _ _ _ _ D).
  - rewrite E1, D1 in F1. injection F1 as F1. assert (Eph : ph' = ph /\ idx' = idx /\ (ph = "%s" \/ ph = "[%s]")).
    { destruct D5 as [(G1 & G2 & G3)|(G1 & G2 & G3 & G4)], F5 as [(H1 & H2 & H3)|(H1 & H2 & H3 & H4)]; try contradiction; subst; [rewrite <- F1; auto|]. split; [reflexivity|]. split; [|auto].
      destruct (HI G3) as [K|K]; [contradiction|]. destruct (K _ D1) as (l & L1 & L2). rewrite (G4 l L1 L2). rewrite E3, <- F1 in H4. apply H4; [exact L1|exact L2]. }
    destruct Eph as (-> & -> & Hph).
    assert (HF : Forall2 Head vs vs').
    { apply forall2_nth; [lia|]. intros k v v' Hv Hv'. destruct (D6 k v Hv) as (ix & I1 & I2 & I3 & I4 & I5 & I6 & I7), (F6 k v' Hv') as (ix' & J1 & J2 & J3 & J4 & J5 & J6 & J7). rewrite I1 in J1. injection J1 as <-. rewrite E2 in J3. rewrite E4 in J5, J6.
      apply (value_fun e b b' _ v v' HB I4 J4 I3 J3); [rewrite (subst_fun _ _ _ _ Hph J2), (subst_fun _ _ _ _ Hph I2); reflexivity| |now rewrite J7, I7].
      destruct (eff_display e b) as [s|]; [|rewrite J5, I5 by reflexivity; reflexivity]. destruct (I6 s eq_refl) as (s1 & s2 & X1 & X2 & ->), (J6 s eq_refl) as (s1' & s2' & Y1 & Y2 & ->).
      rewrite (subst_fun _ _ _ _ Hph X1) in X2. rewrite (subst_fun _ _ _ _ Hph Y1) in Y2. rewrite (subst_fun "[%s]" _ _ _ (or_intror eq_refl) X2), (subst_fun "[%s]" _ _ _ (or_intror eq_refl) Y2). reflexivity. }
    split; [exact HF|]. cbn [HeadO]. apply (value_fun e b b' 0); auto; [congruence| |rewrite F10, D10; unfold dim_of_base; now rewrite E1, E2, E3].
    destruct HF as [|v v' vs vs' Hv HF]; [cbn in D2; lia|]. rewrite (D11 v eq_refl), (F11 v' eq_refl). exact (head_display _ _ Hv).
Qed.

(** ** Shuffled elements *)
Definition Shell (e e' : parsed) : Prop :=
  match e, e' with
  | PaPer p, PaPer p' => exists l, p' = set_rcs p l
  | PaRc (SReg r), PaRc (SReg r') => exists l, r' = set_fields r l
  | PaRc (SClu c _), PaRc (SClu c' _) => c' = c
  | PaFld f, PaFld f' => exists l, f' = set_evcs f l
  | _, _ => False
  end.
Lemma shell_eqs e e' : Shell e e' -> parsed_name e' = parsed_name e /\ parsed_dim e' = parsed_dim e /\ parsed_display e' = parsed_display e /\ derived_of e' = derived_of e /\ level_of e' = level_of e /\ stated_size e' = stated_size e.
Proof. destruct e as [|p|[r|c k]|f|ev], e' as [|p'|[r'|c' k']|f'|ev']; cbn [Shell]; try tauto; [intros (l & ->)|intros (l & ->)|intros ->|intros (l & ->)]; repeat split. Qed.
Lemma shell_attrs e e' b v : Shell e e' -> Attributes e' b v -> Attributes e b v.
Proof. destruct e as [|p|[r|c k]|f|ev], e' as [|p'|[r'|c' k']|f'|ev']; cbn [Shell]; try tauto; [intros (l & ->)|intros (l & ->)|intros ->|intros (l & ->)]; intros H; exact H. Qed.
Lemma bits_set f l base m lo : Bits (set_evcs f l) base m lo -> Bits f base m lo.
Proof.
  intros H. inversion H as [s a b H1 H2|? ? H1 H2|? ? H1 H2 H3]; subst; [apply (Bits_range f base s a b H1 H2)|exact (Bits_pair f base m lo H1 H2)|exact (Bits_offset f base m lo H1 H2 H3)].
Qed.
Lemma shell_placed e e' b k v : Shell e e' -> Placed e' b k v -> Placed e b k v.
Proof.
  destruct e as [|p|[r|c x]|f|ev], e' as [|p'|[r'|c' x']|f'|ev']; cbn [Shell]; try tauto; [intros (l & ->)|intros (l & ->)|intros ->|intros (l & ->)]; intros H; try exact H.
  destruct v as [p|[r|c x]|g]; try exact H. destruct H as (m & lo & H1 & H2). exists m, lo. split; [exact (bits_set _ _ _ _ _ H1)|exact H2].
Qed.
Lemma shell_described e e' b vs tv : Shell e e' -> Described e' b vs tv -> Described e b vs tv.
Proof.
  intros HS D. destruct (shell_eqs _ _ HS) as (E1 & E2 & E3 & _). assert (EI : eff_dim e' b = eff_dim e b /\ eff_inc e' b = eff_inc e b /\ eff_index e' b = eff_index e b) by (unfold eff_dim, eff_inc, eff_index; rewrite E2; auto). destruct EI as (I1 & I2 & I3).
  assert (I4 : eff_display e' b = eff_display e b). { unfold eff_display. rewrite E3. destruct e as [|p|[r|c x]|f|ev], e' as [|p'|[r'|c' x']|f'|ev']; cbn [Shell] in HS; try tauto; reflexivity. }
  inversion D as [v D1 D2 D3 D4 D5 D6 D7|vs0 t n idx ph D1 D2 D3 D4 D5 D6 D7 D8 D9 D10 D11]; subst; unfold dim_of_base in *; rewrite ?E1, ?I1, ?I2, ?I3, ?I4 in *.
  - apply Single; auto; [exact (shell_placed _ _ _ _ _ HS D3)|exact (shell_attrs _ _ _ _ HS D4)].
  - apply (Many e b vs t (Z.of_nat (length vs)) idx ph); auto; [|exact (shell_placed _ _ _ _ _ HS D8)|exact (shell_attrs _ _ _ _ HS D9)].
    intros k v Hv. destruct (D6 k v Hv) as (ix & J1 & J2 & J3 & J4 & J5). exists ix. split; [exact J1|]. split; [exact J2|]. split; [exact (shell_placed _ _ _ _ _ HS J3)|]. split; [exact (shell_attrs _ _ _ _ HS J4)|exact J5].
Qed.

Inductive Sh : parsed -> parsed -> Prop :=
| Sh_per p p' : ShufPer p p' -> Sh (PaPer p) (PaPer p')
| Sh_rc x x' : ShufRc x x' -> Sh (PaRc x) (PaRc x')
| Sh_fld f f' : ShufField f f' -> Sh (PaFld f) (PaFld f')
| Sh_evc c : Sh (PaEvc c) (PaEvc c).
Lemma sh_shell e e' : Sh e e' -> level_of e <> LEnum -> Shell e e'.
Proof.
  intros [p p' (l & _ & ->)|x x' H|f f' (l & _ & ->)|c] Hl; cbn [Shell]; [eauto| |eauto|exact (Hl eq_refl)]. destruct H as [r r' (l & _ & ->)|c l m l' _ _]; cbn [Shell]; eauto.
Qed.
Lemma reordered_in {A B} (R R' : A -> B -> Prop) l l' : Reordered R l l' -> (forall x y, R x y -> R' x y) -> Reordered R' l l'.
Proof. intros (m & HP & HF) H. exists m. split; [exact HP|]. clear HP. induction HF; constructor; auto. Qed.
Lemma reordered_map2 {A B} (R : A -> A -> Prop) (R' : B -> B -> Prop) (h : A -> B) l l' : Reordered R l l' -> (forall x y, R x y -> R' (h x) (h y)) -> Reordered R' (map h l) (map h l').
Proof. intros H K. apply (reordered_map R R' h _ _ H). intros x y _. apply K. Qed.
Lemma sh_kids e e' : Sh e e' -> Reordered Sh (kids_of e) (kids_of e').
Proof.
  intros [p p' (l & H & ->)|x x' H|f f' (l & H & ->)|c]; cbn [kids_of set_rcs sp_rcs set_evcs sf_evcs].
  - apply (reordered_map2 ShufRc Sh PaRc _ _ H). apply Sh_rc.
  - destruct H as [r r' (l & H & ->)|c l m l' HP HF]; cbn [kids_of set_fields sr_fields].
    + apply (reordered_map2 ShufField Sh PaFld _ _ H). apply Sh_fld.
    + apply (reordered_map2 ShufRc Sh PaRc l l'); [exists m; auto|apply Sh_rc].
  - exists (map PaEvc l). split; [now apply Permutation_map|]. clear. induction l; constructor; [constructor|exact IHl].
  - exists []. split; constructor.
Qed.

(** ** Below the peripherals: nothing is derived *)
Inductive Deep : svd_rc -> Prop :=
| Deep_reg r : sr_derived r = None -> DimRules (PaRc (SReg r)) ->
    (forall f, In f (sr_fields r) -> sf_derived f = None /\ DimRules (PaFld f) /\ forall c, In c (sf_evcs f) -> sevc_derived c = None) -> Deep (SReg r)
| Deep_clu c l : sc_derived c = None -> DimRules (PaRc (SClu c l)) -> (forall x, In x l -> Deep x) -> Deep (SClu c l).
Lemma rules_index e : DimRules e -> IndexFine e None.
Proof.
  intros [[H _]|(n & En & Hn & [(K & _)|(_ & _ & _ & _ & l & L1 & L2)])] Hp; [contradiction|now left|]. right. intros m Em. unfold eff_dim in Em. rewrite En in Em. cbn in Em. injection Em as <-. exists l. split; [|exact L2]. unfold eff_index. destruct (sd_index (parsed_dim e)); exact L1.
Qed.
Lemma elab_underived ps sc e ks vs tv : derived_of e = None -> Elab ps sc e ks vs tv -> ks = kids_of e /\ Described e None vs tv.
Proof. intros Hd H. inversion H; subst; [auto|congruence]. Qed.

Definition SameP (o o' : processed) : Prop :=
  match o, o' with PrPer p, PrPer q => SamePer p q | PrRc x, PrRc y => SameRc x y | PrFld f, PrFld g => SameF f g | _, _ => False end.
Lemma concat_perm {A} (l m : list (list A)) : Permutation l m -> Permutation (concat l) (concat m).
Proof.
  induction 1 as [|x l m H IH|x y l|l m k _ IH1 _ IH2]; cbn [concat]; [constructor|now apply Permutation_app_head|rewrite !app_assoc; apply Permutation_app_tail, Permutation_app_comm|eapply Permutation_trans; eassumption].
Qed.
Lemma kids_same (S : parsed -> parsed -> Prop) (O O' : parsed -> list processed -> Prop) ks ks' oss oss' : Reordered S ks ks' -> Forall2 O ks oss -> Forall2 O' ks' oss' ->
  (forall e e' os os', In e ks -> S e e' -> O e os -> O' e' os' -> Forall2 SameP os os') -> Reordered SameP (concat oss) (concat oss').
Proof.
  intros (m & HP & HS) H1 H2 HK. destruct (ExpandFinal.Forall2_perm O ks m HP oss H1) as (om & H3 & P). exists (concat om). split; [now apply concat_perm|].
  assert (HI : forall e, In e m -> In e ks) by (intros e He; eapply Permutation_in; [apply Permutation_sym, HP|exact He]). clear HP H1 P. revert om oss' H2 H3. induction HS as [|e e' m ks' He HS IH]; intros om oss' H2 H3; inversion H2 as [|? os' ? oss0 A1 A2]; inversion H3 as [|? os ? om0 B1 B2]; subst; cbn [concat]; [constructor|].
  apply Forall2_app; [exact (HK e e' os os' (HI e (or_introl eq_refl)) He B1 A1)|]. apply IH; auto. intros; apply HI; now right.
Qed.
Lemma reordered_out {A} (mk : A -> processed) (R : A -> A -> Prop) o o' l l' : (forall a b, SameP (mk a) (mk b) -> R a b) -> Reordered SameP o o' -> Permutation o (map mk l) -> Permutation o' (map mk l') -> Reordered R l l'.
Proof.
  intros HR (m & HP & HF) P P'. destruct (perm_forall2 SameP m o' HF _ P') as (k & K1 & K2). assert (K3 : Permutation (map mk l) k) by (eapply Permutation_trans; [apply Permutation_sym, P|]; eapply Permutation_trans; [exact HP|exact K1]).
  apply Permutation_sym, Permutation_map_inv in K3 as (k0 & -> & K3). exists k0. split; [exact K3|]. clear - K2 HR. revert l' K2. induction k0 as [|a k0 IH]; intros [|b l'] H; cbn in H; inversion H; subst; constructor; auto.
Qed.

Lemma head_single e b b' vs tv vs' tv' : HeadO b b' -> IndexFine e b -> Described e b vs tv -> Described e b' vs' tv' -> is_some tv' = is_some tv.
Proof. intros HB HI D D'. destruct (described_fun _ _ _ _ _ _ _ HB HI D D') as [_ K]. destruct tv, tv'; cbn in K; tauto. Qed.

Lemma described_attrs e b vs tv v : Described e b vs tv -> In v vs -> Attributes e b v.
Proof.
  intros D H. inversion D as [v0 D1 D2 D3 D4 D5 D6 D7|vs0 t n idx ph D1 D2 D3 D4 D5 D6 D7 D8 D9 D10 D11]; subst; [destruct H as [<-|[]]; exact D4|]. apply In_nth_error in H as (k & H). destruct (D6 k v H) as (ix & _ & _ & _ & K & _). exact K.
Qed.
Lemma evc_own q e e' : sevc_derived e = None -> EffEvc q e e' -> e' = e.
Proof. intros Hd H. inversion H; subst; [reflexivity|congruence]. Qed.
Lemma forall2_head (F F' : processed -> processed -> Prop) vs vs' os os' : Forall2 Head vs vs' -> Forall2 F vs os -> Forall2 F' vs' os' ->
  (forall v v' o o', In v vs -> Head v v' -> F v o -> F' v' o' -> SameP o o') -> Forall2 SameP os os'.
Proof.
  intros H. revert os os'. induction H as [|v v' vs vs' Hv HF IH]; intros os os' H1 H2 HK; inversion H1; inversion H2; subst; constructor; [eapply HK; eauto; now left|]. apply IH; auto. intros a a' o o' Ha. apply HK. now right.
Qed.
Lemma containers_fun q lsb msb es ics : (forall c, In c es -> sevc_derived c = None) -> Forall2 (fun e c => exists e' w, EffEvc q e e' /\ create_evc e' lsb msb = (w, Ok c)) es ics ->
  Forall2 (fun e c => exists w, create_evc e lsb msb = (w, Ok c)) es ics.
Proof.
  intros He H. induction H as [|e c es ics (e' & w & A1 & A2) HF IH]; constructor; [|apply IH; intros; apply He; now right]. rewrite (evc_own _ _ _ (He e (or_introl eq_refl)) A1) in A2. eauto.
Qed.
Lemma forall2_fun {A B} (R : A -> B -> Prop) l m m' : (forall a b b', R a b -> R a b' -> b = b') -> Forall2 R l m -> Forall2 R l m' -> m = m'.
Proof. intros HR H. revert m'. induction H as [|a b l m Hab HF IH]; intros m' H'; inversion H'; subst; [reflexivity|]. f_equal; eauto. Qed.

Section Two.
  Context (ps ps' : list svd_periph).    (* the two descriptions *)
  Notation O := (Outs (QuietBases ps) (Elab ps) (EffEvc ps)).
  Notation O' := (Outs (QuietBases ps') (Elab ps') (EffEvc ps')).

  Lemma field_same ctx ctx' sc sc' f f' os os' : ShufField f f' -> sf_derived f = None -> DimRules (PaFld f) -> (forall c, In c (sf_evcs f) -> sevc_derived c = None) ->
    O ctx sc (PaFld f) os -> O' ctx' sc' (PaFld f') os' -> Forall2 SameP os os'.
  Proof.
    intros HS Hd HR He H H'. assert (HSh := sh_shell _ _ (Sh_fld _ _ HS) ltac:(discriminate)). destruct HS as (le & HP & ->). inversion H as [? ? ? ks vs tv ? HE HF]; inversion H' as [? ? ? ks' vs' tv' ? HE' HF']; subst.
    apply elab_underived in HE as [-> D]; [|exact Hd]. apply elab_underived in HE' as [-> D']; [|exact Hd]. apply (shell_described _ _ _ _ _ HSh) in D'.
    destruct (described_fun (PaFld f) None None _ _ _ _ Logic.I (rules_index _ HR) D D') as [HH _]. eapply forall2_head; [exact HH|exact HF|exact HF'|]. cbn beta.
    intros v v' o o' Hv Hvv Fv Fv'. assert (HA := described_attrs _ _ _ _ _ D Hv). destruct v as [x|[x|x xs]|x]; try (cbn in HA; contradiction). destruct v' as [y|[y|y ys]|y]; try (cbn in Hvv; contradiction). destruct Hvv as (E1 & E2 & E3).
    inversion Fv as [s c ks g es ics cs Ek Fe Pe Ue| | | | |]; inversion Fv' as [s' c' ks' g' es' ics' cs' Ek' Fe' Pe' Ue'| | | | |]; subst. cbn [kids_of set_evcs sf_evcs] in Ek, Ek'.
    apply map_inj in Ek; [|intros; congruence]. apply map_inj in Ek'; [|intros; congruence]. subst es es'. rewrite E1 in Fe'. apply containers_fun in Fe; [|exact He]. apply containers_fun in Fe'; [|intros c0 Hc0; apply He; eapply Permutation_in; [apply Permutation_sym, HP|exact Hc0]].
    destruct (ExpandFinal.Forall2_perm _ _ _ HP _ Fe) as (k & K1 & K2). assert (k = ics') as ->. { eapply forall2_fun; [|exact K1|exact Fe']. intros a b b' (w1 & X1) (w2 & X2). rewrite X1 in X2. now injection X2. }
    cbn [SameP]. unfold SameF. cbn [if_b if_access if_evcs]. repeat split; auto. eapply Permutation_trans; [apply Permutation_sym, Pe|]. eapply Permutation_trans; [exact K2|exact Pe'].
  Qed.
End Two.

Lemma same_size ctx x y : SameRc x y -> size_in ctx y = size_in ctx x.
Proof. intros H. inversion H as [r q m E1 E2|c l d xs m E1 E2]; subst; unfold size_in; now rewrite E2. Qed.
Lemma largest_same ctx l l' : Reordered SameRc l l' -> largest ctx l' = largest ctx l.
Proof.
  intros (m & HP & HF). assert (E : largest ctx l = largest ctx m). { unfold largest. clear HF. induction HP as [|x l m H IH|x y l|l m k _ IH1 _ IH2]; cbn [map fold_right]; [reflexivity|now rewrite IH|lia|congruence]. }
  rewrite E. unfold largest. f_equal. clear - HF. induction HF as [|x y m l' H HF IH]; [reflexivity|]. cbn [map]. f_equal; [now apply same_size|exact IH].
Qed.
Lemma reordered_nil {A B} (R : A -> B -> Prop) l l' : Reordered R l l' -> l = [] <-> l' = [].
Proof.
  intros (m & HP & HF). split; intros ->; [apply Permutation_nil in HP; subst; inversion HF; reflexivity|]. inversion HF; subst. apply Permutation_sym, Permutation_nil in HP. exact HP.
Qed.

Section Three.
  Context (ps ps' : list svd_periph) (HQ : QuietBases ps) (HQ' : QuietBases ps').
  Notation O := (Outs (QuietBases ps) (Elab ps) (EffEvc ps)).
  Notation O' := (Outs (QuietBases ps') (Elab ps') (EffEvc ps')).

  (** one cluster or peripheral: the children put in *)
  Lemma put_same (ks ks' : list parsed) ctx oss oss' (xs xs' : list irc) (single : bool) s s' :
    Reordered Sh ks ks' -> (forall e e' os os', In e ks -> Sh e e' -> O ctx ks e os -> O' ctx ks' e' os' -> Forall2 SameP os os') ->
    Forall2 (O ctx ks) ks oss -> Forall2 (O' ctx ks') ks' oss' -> Permutation (concat oss) (map PrRc xs) -> Permutation (concat oss') (map PrRc xs') ->
    (QuietBases ps \/ single = true \/ Forall has_size xs -> s = largest ctx xs) -> (QuietBases ps' \/ single = true \/ Forall has_size xs' -> s' = largest ctx xs') ->
    Reordered SameRc xs xs' /\ s' = s.
  Proof.
    intros HR HK H H' HP HP' Hs Hs'. assert (HO : Reordered SameRc xs xs').
    { apply (reordered_out PrRc SameRc (concat oss) (concat oss')); auto. apply (kids_same Sh (O ctx ks) (O' ctx ks') ks ks'); auto. }
    split; [exact HO|]. rewrite (Hs (or_introl HQ)), (Hs' (or_introl HQ')). exact (largest_same ctx _ _ HO).
  Qed.

  Lemma rc_same x : forall x' ctx sc sc' os os', ShufRc x x' -> Deep x -> O ctx sc (PaRc x) os -> O' ctx sc' (PaRc x') os' -> Forall2 SameP os os'.
  Proof.
    induction x as [r|c l IH] using svd_rc_ind'; intros x' ctx sc sc' os os' HS HD H H'; assert (HSh := sh_shell _ _ (Sh_rc _ _ HS) ltac:(discriminate)); assert (HKids := sh_kids _ _ (Sh_rc _ _ HS));
      inversion H as [? ? ? ks vs tv ? HE HF]; inversion H' as [? ? ? ks' vs' tv' ? HE' HF']; subst; destruct (shell_eqs _ _ HSh) as (_ & _ & _ & Ed & _); inversion HD as [? D1 D2 D3|? ? D1 D2 D3]; subst.
    - apply elab_underived in HE as [-> D]; [|exact D1]. apply elab_underived in HE' as [-> D']; [|rewrite Ed; exact D1]. apply (shell_described _ _ _ _ _ HSh) in D'.
      destruct (described_fun _ None None _ _ _ _ Logic.I (rules_index _ D2) D D') as [HH _]. eapply forall2_head; [exact HH|exact HF|exact HF'|]. cbn beta.
      intros v v' o o' Hv Hvv Fv Fv'. assert (HA := described_attrs _ _ _ _ _ D Hv). destruct v as [x|[x|x xs]|x]; try (cbn in HA; contradiction). destruct v' as [y|[y|y ys]|y]; try (cbn in Hvv; contradiction). destruct Hvv as (E1 & E2 & E3).
      inversion Fv as [|? ? ? ? oss fs F1 F2 F3| | | |]; inversion Fv' as [|? ? ? ? oss' fs' F1' F2' F3'| | | |]; subst. cbn [SameP].
      assert (HO : Reordered SameF fs fs'). { apply (reordered_out PrFld SameF (concat oss) (concat oss')); auto. eapply (kids_same Sh); [exact HKids|exact F1|exact F1'|]. cbn [kids_of]. intros e e' os0 os0' He HSe A1 A2. apply in_map_iff in He as (f & <- & Hf). inversion HSe as [| |f0 f' HSf|]; subst.
        destruct (D3 f Hf) as (X1 & X2 & X3). exact (field_same ps ps' _ _ _ _ f f' _ _ HSf X1 X2 X3 A1 A2). }
      destruct HO as (m & M1 & M2). apply (Same_reg _ _ m); auto.
    - apply elab_underived in HE as [-> D]; [|exact D1]. apply elab_underived in HE' as [-> D']; [|rewrite Ed; exact D1]. apply (shell_described _ _ _ _ _ HSh) in D'. destruct x' as [r'|c' l']; [inversion HS|]. cbn [Shell] in HSh. subst c'. cbn [kids_of] in *.
      destruct (described_fun _ None None _ _ _ _ Logic.I (rules_index _ D2) D D') as [HH HT]. assert (ET : is_some tv' = is_some tv) by exact (head_single _ None None _ _ _ _ Logic.I (rules_index _ D2) D D').
      eapply forall2_head; [exact HH|exact HF|exact HF'|]. cbn beta. rewrite ET.
      intros v v' o o' Hv Hvv Fv Fv'. assert (HA := described_attrs _ _ _ _ _ D Hv). destruct v as [x|[x|x xs]|x]; try (cbn in HA; contradiction). destruct v' as [y|[y|y ys]|y]; try (cbn in Hvv; contradiction). destruct Hvv as (E1 & E2 & E3).
      rewrite Forall_forall in IH. assert (HK : forall ctx e e' os os', In e (map PaRc l) -> Sh e e' -> O ctx (map PaRc l) e os -> O' ctx (map PaRc l') e' os' -> Forall2 SameP os os').
      { intros ctx0 e e' os0 os0' He HSe A1 A2. apply in_map_iff in He as (z & <- & Hz). inversion HSe as [|z0 z' HSz| |]; subst. exact (IH z Hz z' _ _ _ _ _ HSz (D3 z Hz) A1 A2). }
      destruct l as [|x0 l0] eqn:El.
      + assert (l' = []) as ->. { apply (reordered_nil Sh) in HKids. destruct l'; [reflexivity|]. destruct HKids as [K _]. discriminate (K eq_refl). } inversion Fv; subst; [exfalso; match goal with N : map PaRc [] <> [] |- _ => exact (N eq_refl) end|]. inversion Fv'; subst; [exfalso; match goal with N : map PaRc [] <> [] |- _ => exact (N eq_refl) end|]. cbn [SameP]. apply (Same_clu _ _ _ _ []); auto.
      + assert (Hl' : l' <> []). { intros ->. apply (reordered_nil Sh) in HKids. destruct HKids as [_ K]. discriminate (K eq_refl). } rewrite <- El in *. inversion Fv as [| |? ? ? ? ? oss xs0 s N1 F1 F2 F3 F4|? ? ? ? Q1| |]; subst; [|exfalso; discriminate]. inversion Fv' as [| |? ? ? ? ? oss' xs0' s' N1' F1' F2' F3' F4'|? ? ? ? Q1| |]; [subst|exfalso; destruct l'; [exact (Hl' eq_refl)|discriminate]].
        rewrite E2 in F1', F4'. destruct (put_same _ _ _ _ _ _ _ _ _ _ HKids (HK _) F1 F1' F2 F2' F4 F4') as [HO ->].
        destruct HO as (m & M1 & M2). cbn [SameP]. apply (Same_clu _ _ _ _ m); cbn [ic_b ic_props]; auto. now rewrite E2.
  Qed.
End Three.
