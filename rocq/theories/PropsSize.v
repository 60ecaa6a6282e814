(** * PropsSize: the effective sizes (C12). *)
From Verif Require Import Base PyStr PyInt Types DimModel EnumModel ElemModel FinalModel ResolveModel ProcessModel SpecProcess SpecDim SpecElem SpecDevice SpecImage SpecDeclared SpecExpand SpecSize.
From Verif Require Import DimFacts ElemFacts ImageFacts PropsDim PropsElem PropsDevice PropsDiag PropsExpand Samples.

Lemma max_of_spec l : -1 <= max_of l /\ (forall z, In z l -> z <= max_of l) /\ (max_of l = -1 \/ In (max_of l) l).
Proof.
  induction l as [|a l (I1 & I2 & I3)]; cbn [max_of fold_right]; [split; [lia|]; split; [intros z []|now left]|]. fold (max_of l).
  split; [lia|]. split; [intros z [<-|Hz]; [lia|]; specialize (I2 z Hz); lia|]. destruct (Z.max_spec a (max_of l)) as [[_ ->]|[_ ->]]; [|right; now left].
  destruct I3 as [I3|I3]; [now left|right; now right].
Qed.
Lemma max_of_same l l' : (forall z, In z l <-> In z l') -> max_of l = max_of l'.
Proof.
  intros H. destruct (max_of_spec l) as (A1 & A2 & A3), (max_of_spec l') as (B1 & B2 & B3).
  assert (max_of l <= max_of l') by (destruct A3 as [A3|A3]; [lia|]; apply B2, H, A3). assert (max_of l' <= max_of l) by (destruct B3 as [B3|B3]; [lia|]; apply A2, H, B3). lia.
Qed.

Notation O' := (Outs True Plainly eq).
Notation F' := (Filled True Plainly eq).
(** [y] is one of the values the element [x] stands for *)
Definition From (ctx : Z) (x : svd_rc) (y : irc) : Prop := exists sc os, O' ctx sc (PaRc x) os /\ In (PrRc y) os.
Definition rc_name (x : svd_rc) : string := match x with SReg r => sr_name r | SClu c _ => sc_name c end.

Lemma described_instance e vs tv v : Described e None vs tv -> In v vs -> InstanceOf (parsed_name e) (processed_name v) /\ Attributes e None v.
Proof.
  intros D Hv. destruct D as [w D1 D2 D3 D4 D5 D6 D7|vs tv n idx ph D1 D2 D3 D4 D5 D6 D7 D8 D9 D10 D11].
  - destruct Hv as [<-|[]]. split; [left; exact D2|exact D4].
  - apply In_nth_error in Hv as (k & Hk). destruct (D6 k v Hk) as (ix & _ & J2 & _ & J4 & _). split; [|exact J4]. right. exists ph, ix. split; [|exact J2]. destruct D5 as [(_ & -> & _)|(_ & -> & _)]; auto.
Qed.
Lemma described_some e vs tv : Described e None vs tv -> vs <> [].
Proof. intros D. destruct D as [|? ? n idx ph D1 D2 D3 D4]; [discriminate|]. intros ->. cbn in D3. lia. Qed.
Lemma own_props own p : PropsFrom own None p -> op_size p = op_size own.
Proof. intros (H & _). rewrite H. unfold inh, own_or, of_base. destruct (op_size own); reflexivity. Qed.

Lemma forall2_out {A B} (R : A -> B -> Prop) l m b : Forall2 R l m -> In b m -> exists a, In a l /\ R a b.
Proof. induction 1 as [|a b' l m HR HF IH]; intros Hb; [destruct Hb|]. destruct Hb as [<-|Hb]; [exists a; split; [now left|exact HR]|]. destruct (IH Hb) as (x & H1 & H2). exists x. split; [now right|exact H2]. Qed.
Lemma forall2_in {A B} (R : A -> B -> Prop) l m a : Forall2 R l m -> In a l -> exists b, In b m /\ R a b.
Proof. induction 1 as [|x b l m HR HF IH]; intros Ha; [destruct Ha|]. destruct Ha as [<-|Ha]; [exists b; split; [now left|exact HR]|]. destruct (IH Ha) as (y & H1 & H2). exists y. split; [now right|exact H2]. Qed.

(** the children of a filled element: each comes from a child of the description, and every child of the description has one *)
Lemma children_from ctx sc l oss xs : Forall2 (O' ctx sc) (map PaRc l) oss -> Permutation (concat oss) (map PrRc xs) ->
  (forall z, In z xs -> exists x, In x l /\ From ctx x z) /\ (forall x, In x l -> exists z, In z xs /\ From ctx x z).
Proof.
  intros HF HP. split.
  - intros z Hz. assert (In (PrRc z) (concat oss)) as K by (eapply Permutation_in; [apply Permutation_sym, HP|now apply in_map]).
    apply in_concat in K as (os & Ho & Hz'). destruct (forall2_out _ _ _ _ HF Ho) as (e & He & HO). apply in_map_iff in He as (x & <- & Hx). exists x. split; [exact Hx|]. exists sc, os. auto.
  - intros x Hx. destruct (forall2_in _ _ _ _ HF (in_map PaRc _ _ Hx)) as (os & Ho & HO). assert (HO' := HO). inversion HO' as [? ? ? ks vs tv ? [H1 H2] H3]; subst.
    assert (Hv := described_some _ _ _ H2). inversion H3 as [|v o vs' os' HFi HF' E1 E2]; subst; [congruence|].
    assert (In o (map PrRc xs)) as K by (eapply Permutation_in; [exact HP|]; apply in_concat; exists (o :: os'); split; [exact Ho|now left]).
    apply in_map_iff in K as (z & <- & Hz). exists z. split; [exact Hz|]. exists sc, (PrRc z :: os'). split; [exact HO|now left].
Qed.

(** what is known of one value of an element *)
Definition Sized (ctx : Z) (x : svd_rc) (y : irc) : Prop :=
  size_in ctx y = counts ctx x /\ InstanceOf (rc_name x) (i_name y) /\
  match x, y with
  | SReg r, IReg q => op_size (ir_props q) = op_size (sr_props r)
  | SClu c l, IClu q ch => (l <> [] -> op_size (ic_props q) = Some (adjusted ctx (op_size (sc_props c)) l)) /\ (l = [] -> ch = []) /\
      (forall z, In z ch -> exists x', In x' l /\ From (stated_or ctx (op_size (sc_props c))) x' z)
  | _, _ => False
  end.
Lemma counts_children ctx sc l oss xs : (forall x, In x l -> forall y, From ctx x y -> Sized ctx x y) -> Forall2 (O' ctx sc) (map PaRc l) oss -> Permutation (concat oss) (map PrRc xs) ->
  largest ctx xs = max_of (map (counts ctx) l) /\ forall z, In z xs -> exists x, In x l /\ From ctx x z.
Proof.
  intros HS HF HP. destruct (children_from _ _ _ _ _ HF HP) as [H1 H2]. split; [|exact H1].
  change (largest ctx xs) with (max_of (map (size_in ctx) xs)). apply max_of_same. intros z. rewrite !in_map_iff. split.
    + intros (y & <- & Hy). destruct (H1 y Hy) as (x & Hx & HFr). exists x. split; [|exact Hx]. destruct (HS x Hx y HFr) as [E _]. now rewrite E.
    + intros (x & <- & Hx). destruct (H2 x Hx) as (y & Hy & HFr). exists y. split; [|exact Hy]. destruct (HS x Hx y HFr) as [E _]. exact E.
Qed.
Lemma inner_stated ctx o : inner ctx o = stated_or ctx o.
Proof. destruct o; reflexivity. Qed.

Lemma from_sized x : forall ctx y, From ctx x y -> Sized ctx x y.
Proof.
  induction x as [r|c l IH] using svd_rc_ind'; intros ctx y (sc & os & HO & Hy); inversion HO as [? ? ? ks vs tv ? [Hk HD] HF]; subst ctx0 sc0 e os0 ks.
  - destruct (forall2_out _ _ _ _ HF Hy) as (v & Hv & HFi). destruct (described_instance _ _ _ _ HD Hv) as [HN HA]. cbn [kids_of] in HFi.
    inversion HFi as [|sg ctx0 ks q oss fs K1 K2 K3| | | |]; subst; try (cbn [Attributes] in HA; contradiction). cbn [Attributes] in HA. destruct HA as (_ & _ & _ & _ & _ & _ & _ & HP).
    apply own_props in HP. cbn [parsed_name] in HN. unfold Sized, size_in. cbn [ir_props rc_name i_name ir_b counts]. rewrite HP. split; [reflexivity|]. split; [exact HN|reflexivity].
  - rewrite Forall_forall in IH. assert (IH' : forall x, In x l -> forall k y, From k x y -> Sized k x y) by (intros x Hx k; apply IH; auto). clear IH.
    destruct (forall2_out _ _ _ _ HF Hy) as (v & Hv & HFi). destruct (described_instance _ _ _ _ HD Hv) as [HN HA]. cbn [kids_of] in HFi.
    inversion HFi as [| |sg ctx0 ks q ch oss xs s K1 K2 K3 K4 K5|sg ctx0 q ch K1 K2 K3| |]; subst; try (cbn [Attributes] in HA; contradiction).
    + cbn [Attributes] in HA. destruct HA as (_ & _ & _ & HP). cbn in HP. apply own_props in HP. cbn [parsed_name processed_name] in HN. rewrite HP, inner_stated in *.
      destruct (counts_children _ _ _ _ _ (fun x Hx => IH' x Hx _) K2 K3) as (L1 & L3).
      assert (Es : s = adjusted ctx (op_size (sc_props c)) l).
      { unfold adjusted. rewrite <- L1. apply K5. now left. }
      assert (l <> []) as Hl by (intros ->; apply K1; reflexivity).
      unfold Sized, size_in. cbn [rc_name i_name ic_b ic_props op_size with_size size_in]. split; [|split; [exact HN|split; [intros _; now rewrite Es|split; [contradiction|exact L3]]]].
      subst s. destruct l; [congruence|]. reflexivity.
    + assert (l = []) as -> by (destruct l; [reflexivity|discriminate]). cbn [Attributes] in HA. destruct HA as (_ & _ & _ & HP). cbn in HP. apply own_props in HP. cbn [parsed_name processed_name] in HN.
      unfold Sized, size_in. cbn [rc_name i_name counts ic_props]. rewrite HP. split; [reflexivity|]. split; [exact HN|]. split; [contradiction|split; [reflexivity|intros z []]].
Qed.

Definition is_reg (y : rc) : bool := match y with Reg _ => true | Clu _ _ => false end.
Lemma path_below l path y : PBelow l path y -> exists o, Below l o y.
Proof. induction 1 as [l [r|c ch] Hx|l c ch path x Hx _ [o IH]]; eexists; [apply Below_reg, Hx|apply Below_clu, Hx|eapply Below_deep; eauto]. Qed.

Lemma below_sized ws l' path y : PBelow l' path y -> forall chain xs ys ctx up l,
  Align ws chain xs ys -> Permutation ys l' -> (forall z, In z xs -> exists x, In x l /\ From ctx x z) ->
  nearest (map op_size chain) = Some up -> (forall p c ch, PBelow l' p (Clu c ch) -> ch <> []) ->
  EffSize ctx up l path (is_reg y) (p_size (el_props y)).
Proof.
  induction 1 as [l' y Hy|l' d ch path y Hy HB IH]; intros chain xs ys ctx up l HA HP HX HU HE.
  - assert (In y ys) as Hy' by (eapply Permutation_in; [apply Permutation_sym, HP|exact Hy]). destruct (Align_in _ _ _ _ HA y Hy') as (z & Hz & HI). destruct (HX z Hz) as (x & Hx & HFr).
    destruct (from_sized x _ _ HFr) as (_ & HN & HM).
    inversion HI as [? r q gs I1 I2 I3 I4 I5|? c lc d ch ys' I1 I2 I3 I4]; subst; destruct x as [sr|sc sl]; try contradiction.
    + cbn [el_name el_props is_reg]. rewrite I1. cbn [i_name rc_name] in HN. destruct I3 as (I3 & _). cbn [map nearest] in I3. rewrite HM in I3.
      replace (p_size (r_props q)) with (stated_or up (op_size (sr_props sr))) by (destruct (op_size (sr_props sr)); cbn; congruence). now apply ES_reg.
    + cbn [el_name el_props is_reg]. rewrite I1. cbn [i_name rc_name] in HN. destruct HM as (M1 & M2 & M3).
      assert (sl <> []) as Hsl. { intros ->. specialize (M2 eq_refl). subst lc. inversion I3; subst. apply Permutation_nil in I4. exact (HE [cb_name (c_b d)] d ch (PB_here _ (Clu d ch) Hy) I4). }
      destruct I2 as (I2 & _). cbn [map nearest] in I2. rewrite (M1 Hsl) in I2. injection I2 as <-. now apply ES_clu.
  - assert (In (Clu d ch) ys) as Hy' by (eapply Permutation_in; [apply Permutation_sym, HP|exact Hy]). destruct (Align_in _ _ _ _ HA _ Hy') as (z & Hz & HI). destruct (HX z Hz) as (x & Hx & HFr).
    destruct (from_sized x _ _ HFr) as (_ & HN & HM).
    inversion HI as [|? c lc ? ? ys' I1 I2 I3 I4]; subst. destruct x as [sr|sc sl]; [contradiction|]. destruct HM as (M1 & M2 & M3). cbn [i_name rc_name] in HN. rewrite I1.
    assert (sl <> []) as Hsl. { intros ->. specialize (M2 eq_refl). subst lc. inversion I3; subst. apply Permutation_nil in I4. subst ch. inversion HB; subst; contradiction. }
    eapply ES_deep; [exact Hx|exact HN|]. eapply IH; [exact I3|exact I4|exact M3| |].
    + cbn [map nearest]. rewrite (M1 Hsl). reflexivity.
    + intros p c' ch' HB'. apply (HE (cb_name (c_b d) :: p) c' ch'). eapply PB_deep; [exact Hy|exact HB'].
Qed.

(** ** C12, for descriptions without derivedFrom: the size of a peripheral or cluster is the largest contribution of its children, and a register
    without size has the size of the element around it.  (The size stated at the device plays no role, see C12_device_size_refuted: 32 stands
    in its place.) *)
Theorem C12_effective_sizes_partial : forall d ws dev, no_derivation d -> Processes d ws dev ->
  forall p, In p (dv_periphs dev) -> exists q, In q (sdv_periphs d) /\ InstanceOf (sp_name q) (pb_name (pr_b p)) /\
    p_size (pr_props p) = adjusted 32 (op_size (sp_props q)) (sp_rcs q) /\
    forall path y, PBelow (pr_rcs p) path y ->
      EffSize (stated_or 32 (op_size (sp_props q))) (adjusted 32 (op_size (sp_props q)) (sp_rcs q)) (sp_rcs q) path (is_reg y) (p_size (el_props y)).
Proof.
  intros d ws dev ND HPr p Hp. destruct (C45_accepted_structure _ _ _ HPr p Hp) as (_ & Hne & Hcl & _).
  destruct (C38_plain_expansion d ws dev ND HPr) as (l & w1 & w2 & (oss & E1 & E2 & _) & (_ & ys & HA & HP) & _).
  cbn [idv_b idv_periphs] in HA. destruct (PersAlign_in _ _ _ _ HA p) as (ip & Hip & HI). { eapply Permutation_in; [apply Permutation_sym, HP|exact Hp]. }
  assert (In (PrPer ip) (concat oss)) as K by (eapply Permutation_in; [apply Permutation_sym, E2|now apply in_map]).
  apply in_concat in K as (os & Ho & Hi). destruct (forall2_out _ _ _ _ E1 Ho) as (e & He & HO). apply in_map_iff in He as (q & <- & Hq).
  exists q. split; [exact Hq|].
  inversion HO as [? ? ? ks vs tv ? [Hk HD] HF]; subst ctx sc e os0 ks. destruct (forall2_out _ _ _ _ HF Hi) as (v & Hv & HFi). destruct (described_instance _ _ _ _ HD Hv) as [HN HAt]. cbn [kids_of] in HFi.
  inversion HI as [? ? ys' I1 I2 I3 I4]; subst.
  inversion HFi as [| | | |sg ctx0 ks ip0 oss' xs s K1 K2 K3 K4 K5|sg ctx0 ip0 K1]; subst; try (cbn [Attributes] in HAt; contradiction).
  - cbn [Attributes] in HAt. destruct HAt as (_ & _ & _ & _ & _ & _ & _ & _ & _ & _ & _ & HPp). cbn in HPp. apply own_props in HPp. cbn [parsed_name processed_name] in HN. cbn [ip_b ip_props ip_rcs] in *.
    rewrite HPp, inner_stated in *. destruct (counts_children _ _ _ _ _ (fun x Hx => from_sized x _) K2 K3) as (L1 & L3).
    assert (Es : s = adjusted 32 (op_size (sp_props q)) (sp_rcs q)).
    { unfold adjusted. rewrite <- L1. apply K5. now left. }
    split; [rewrite I1; exact HN|]. assert (Es' : p_size (pr_props p) = s) by (destruct I2 as (I2 & _); cbn in I2; congruence). split; [congruence|].
    intros path y Hy. rewrite <- Es. apply (below_sized _ _ _ _ Hy _ _ _ _ _ _ I3 I4 L3); [reflexivity|]. intros pth c ch HB. destruct (path_below _ _ _ HB) as (o & HB'). exact (Hcl o c ch HB').
  - exfalso. cbn [ip_rcs] in I3. inversion I3; subst. apply Permutation_nil in I4. contradiction.
Qed.
Print Assumptions C12_effective_sizes_partial.

Definition no_derivation_b (d : svd_device) : bool :=
  forallb (fun p => negb (is_some (sp_derived p))) (sdv_periphs d) &&
  forallb (fun x => match x with
    | SClu c _ => negb (is_some (sc_derived c))
    | SReg r => negb (is_some (sr_derived r)) && forallb (fun f => negb (is_some (sf_derived f)) && forallb (fun e => negb (is_some (sevc_derived e))) (sf_evcs f)) (sr_fields r)
    end) (all_of d).
Lemma not_some {A} (o : option A) : negb (is_some o) = true -> o = None.
Proof. destruct o; [discriminate|reflexivity]. Qed.
Lemma no_derivation_dec d : no_derivation_b d = true -> no_derivation d.
Proof.
  intros H. apply andb_true_iff in H as [H1 H2]. rewrite forallb_forall in H1, H2.
  assert (HF : forall p r f, In p (sdv_periphs d) -> DeclaredRc (sp_rcs p) (SReg r) -> In f (sr_fields r) -> sf_derived f = None /\ forall e, In e (sf_evcs f) -> sevc_derived e = None).
  { intros p r f Hp Hr Hf. specialize (H2 _ (declared_of _ _ _ Hp Hr)). cbn in H2. apply andb_true_iff in H2 as [_ H2]. rewrite forallb_forall in H2. specialize (H2 f Hf). apply andb_true_iff in H2 as [H2 H3].
    rewrite forallb_forall in H3. split; [now apply not_some|]. intros e He. now apply not_some, H3. }
  split; [intros p Hp; now apply not_some, H1|]. split; [|split; [|split]].
  - intros p c l Hp Hx. specialize (H2 _ (declared_of _ _ _ Hp Hx)). now apply not_some.
  - intros p r Hp Hx. specialize (H2 _ (declared_of _ _ _ Hp Hx)). cbn in H2. apply andb_true_iff in H2 as [H2 _]. now apply not_some.
  - intros f (p & r & Hp & Hr & Hf). exact (proj1 (HF p r f Hp Hr Hf)).
  - intros e (f & (p & r & Hp & Hr & Hf) & He). exact (proj2 (HF p r f Hp Hr Hf) e He).
Qed.
(** a cluster that states 16 bits, with a register of 64 bits and an array of registers without size, in a peripheral of which another register
    states 8 bits: cluster and array get 64 bits, the peripheral too; and an array of peripherals that state 8 bits, with a register of 16 bits and
    one without size, which counts as 8 bits for the size of its peripheral but gets the 16 bits of the other *)
Definition size_sample : svd_device :=
  s_dev [s_per "P" 4096 [s_clu (sized 16) "C" 0 None [s_reg_dim nodim (sized 64) "W" 0 [] None None;
                                                     s_reg_dim (mk_sdim (Some 2) (Some 8) None None None) noprops "A[%s]" 8 [] None None] None;
                         s_reg_dim nodim (sized 8) "B" 64 [] None None; s_reg "N" 72 [] None None] None None;
         s_per_dim (mk_sdim (Some 2) (Some 4096) None None None) (sized 8) "Q[%s]" 8192 [s_reg "V" 0 [] None None; s_reg_dim nodim (sized 16) "H" 4 [] None None] None None].
Example C12_sizes_nonvacuous : exists ws dev, no_derivation size_sample /\ Processes size_sample ws dev /\
  map (fun p => (p_size (pr_props p), map (fun r => (rb_name (r_b r), p_size (r_props r))) (pr_regs p))) (dv_periphs dev) =
    [(64, [("W", 64); ("A0", 64); ("A1", 64); ("B", 8); ("N", 64)]); (16, [("V", 16); ("H", 16)]); (16, [("V", 16); ("H", 16)])].
Proof.
  exists (fst (process_device 20 size_sample)), (the_device (process_device 20 size_sample)). split; [|split].
  - apply no_derivation_dec. vm_compute. reflexivity.
  - exists 20%nat. unfold the_device. vm_compute. reflexivity.
  - vm_compute. reflexivity.
Qed.
