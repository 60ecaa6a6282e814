(** * ExpandScope: a base that is stated by a plain name is a sibling.
    [sc_kid]: nodes that share a child have the same effective children.  [sc_der]: an element that is derived by a plain name and its base have
    effective siblings in common, although the code may have copied one of the two in the meantime. *)
From Coq Require Import Relations.
From Verif Require Import Base PyStr Types DimModel EnumModel ElemModel ResolveModel GraphFacts ReplicateFacts ResolveWF ResolveInv TopoFacts SpecDeclared SpecElem SpecSearch SearchFacts SpecExpand DescribeFacts PropsDim ExpandInv ExpandBuild ExpandStep ExpandNode ExpandRounds ExpandShare.

Definition plain_name (path : string) : Prop := split_on "." path = [path].
Record Sc (W : nat -> Prop) (g : graph) (KS : nat -> list parsed) : Prop := {
  sc_kid : forall p q c, Kid g p c -> Kid g q c -> KS p = KS q;
  sc_der : forall b i n path, In (b, i, DERIVE) (g_edges g) -> get_node g i = Some n -> n_done n = false -> n_level n <> LEnum -> derived_of (n_parsed n) = Some path -> plain_name path ->
    exists y ny, Kid g y b /\ get_node g y = Some ny /\ (n_done ny = true \/ W y) /\ forall p, Kid g p i -> incl (KS y) (KS p) }.

Fixpoint rcsize (x : svd_rc) : nat := match x with SReg _ => 1 | SClu _ l => Datatypes.S (list_sum (map rcsize l)) end.
Definition clsize (e : parsed) : nat := match e with PaRc x => rcsize x | _ => 0 end.
Lemma clsize_kid a e : level_of a = LCluster -> level_of e = LCluster -> In e (kids_of a) -> (clsize e < clsize a)%nat.
Proof.
  destruct a as [|?|[?|c l]|?|?]; try discriminate. cbn [kids_of]. intros _ He H. apply in_map_iff in H as (x & <- & H). cbn [clsize rcsize].
  apply le_n_S. clear He. change (list_sum (map rcsize l)) with (fold_right Nat.add 0%nat (map rcsize l)). induction l as [|y l IH]; [destruct H|]. cbn [map fold_right]. destruct H as [->|H]; [lia|]. specialize (IH H). lia.
Qed.

Section Scope.
  Context (ps : Sys) (NDC : forall a e, MayBeBase ps a -> level_of a = LCluster -> Inside a e -> ~ derived_cluster e).

  (** ** No node has all the children of a node above it *)
  Definition InEq (a e : parsed) : Prop := a = e \/ Inside a e.
  (** what may be found below [q]: an element of [q], or one of a base, if there is a derived cluster in [q] *)
  Definition Below2 (q e : parsed) : Prop := InEq q e \/ exists e0 r, MayBeBase ps e0 /\ level_of e0 = LCluster /\ Inside e0 e /\ InEq q r /\ derived_cluster r.
  Lemma ineq_step q x e : InEq q x -> In e (kids_of x) -> Inside q e.
  Proof. intros [->|H] K; [now apply Inside_kid|eapply Inside_deep; eassumption]. Qed.
  Lemma inside_trans a b e : Inside a b -> Inside b e -> Inside a e.
  Proof. intros H. induction 1 as [e K|x e _ IH K]; eapply Inside_deep; eauto. Qed.
  Lemma below2_step q x e e0 : Below2 q x -> level_of x = LCluster -> e0 = x \/ MayBeBase ps e0 /\ derived_of x <> None -> level_of e0 = LCluster -> In e (kids_of e0) ->
    Inside q e \/ exists e0 r, MayBeBase ps e0 /\ level_of e0 = LCluster /\ Inside e0 e /\ InEq q r /\ derived_cluster r.
  Proof.
    intros HB Lx [->|[HM Hd]] L0 Hin.
    - destruct HB as [HB|(e1 & r & K1 & K2 & K3 & K4)]; [left; eapply ineq_step; eassumption|]. right. exists e1, r. split; [exact K1|]. split; [exact K2|]. split; [eapply Inside_deep; eassumption|exact K4].
    - right. destruct HB as [HB|(e1 & r & K1 & K2 & K3 & K4)]; [exists e0, x|exists e0, r]; (split; [exact HM|]; split; [exact L0|]; split; [now apply Inside_kid|]); [|exact K4]. split; [exact HB|split; assumption].
  Qed.
  Lemma inside_size a e : level_of a = LCluster -> level_of e = LCluster -> Inside a e -> (clsize e < clsize a)%nat.
  Proof.
    intros La Le H. revert Le. induction H as [e K|x e H IH K]; intros Le; [now apply clsize_kid|].
    assert (Lx : level_of x = LCluster). { apply kids_level in K. apply inside_lt in H. rewrite Le in K. rewrite La in H. destruct K as [K|[K _]]; [|exact K]. destruct H as [H|[_ H]]; [cbn in *; lia|exact H]. }
    specialize (IH Lx). apply (clsize_kid x e Lx Le) in K. lia.
  Qed.
  Lemma no_incl W g KS y q p0 : NInv ps W g KS -> EInv g -> Kid g y q -> clos_refl_trans nat (Kid g) q p0 -> incl (KS y) (KS p0) -> False.
  Proof.
    intros V E Kq Hqp Hincl.
    assert (Hye : is_elem g y = true) by (apply ckids_In in Kq as (t & K1 & K2); apply (w_child _ E _ _ _ K1 K2)). apply is_elem_iff in Hye as Hy. destruct Hy as [ny Hy].
    destruct (child_level _ _ _ _ _ _ _ V Hy Kq) as (Hq0 & nq & Hq & Elq & _).
    destruct (v_kids _ _ _ _ V _ Hye) as (fams & HP & HF). assert (Kq' := Kq). apply (Permutation_in _ HP) in Kq'.
    destruct (Fams_in _ _ _ _ _ _ _ _ HF Kq') as (e & fam & Hine & _ & Hfam & Hin).
    assert (Hel : forall x, clos_refl_trans nat (Kid g) q x -> exists nx, get_node g x = Some nx /\ (x = q \/ lv_lt (n_level nq) (n_level nx)) /\ x <> 0%nat).
    { intros x Hx. apply clos_rt_rtn1 in Hx. induction Hx as [|x z K _ (nx & Hx & HL & Hx0)]; [exists nq; auto|]. destruct (child_level _ _ _ _ _ _ _ V Hx K) as (Hz0 & nz & Hz & _ & Hlt). exists nz. split; [exact Hz|]. split; [|exact Hz0].
      right. destruct HL as [->|HL]; [rewrite Hq in Hx; injection Hx as <-; exact Hlt|eapply lv_lt_trans; eassumption]. }
    destruct (Hel _ Hqp) as (np & Hp & HLp & Hp0).
    assert (Hlt : lv_lt (n_level np) (level_of e)) by (apply (below_lt ps); eapply (v_prov _ _ _ _ V); [exact Hp|apply Hincl, Hine]).
    destruct (Fam_level _ _ _ _ _ _ _ _ Hfam Hin) as (nq' & Hq' & Ele). rewrite Hq in Hq'. injection Hq' as <-. rewrite <- Ele, <- Elq in Hlt.
    assert (Lq : n_level nq = LCluster /\ n_level np = LCluster).
    { destruct Hlt as [Hlt|[K1 K2]]; [|auto]. exfalso. destruct HLp as [->|[HLp|[K1 K2]]]; [rewrite Hq in Hp; injection Hp as <-; lia|lia|rewrite K1, K2 in Hlt; lia]. }
    destruct Lq as [Lq Lp].
    assert (Ee : n_parsed nq = e) by (destruct (Fam_parsed _ _ _ _ _ _ _ _ _ Hfam Hin Hq) as [K|[_ K]]; [exact K|congruence]). clear Ele.
    assert (Hb : forall x nx, clos_refl_trans nat (Kid g) q x -> get_node g x = Some nx -> n_level nx = LCluster -> Below2 (n_parsed nq) (n_parsed nx)).
    { intros x nx Hx. apply clos_rt_rtn1 in Hx. revert nx. induction Hx as [|x z K Hx IH]; intros nz Hz Lz; [rewrite Hq in Hz; injection Hz as <-; left; now left|].
      apply clos_rtn1_rt in Hx. destruct (Hel _ Hx) as (nx & Hnx & HL & Hx0). destruct (child_level _ _ _ _ _ _ _ V Hnx K) as (_ & nz' & Hz' & _ & Hlz). rewrite Hz in Hz'. injection Hz' as <-.
      assert (Lx : n_level nx = LCluster).
      { rewrite Lz in Hlz. destruct Hlz as [Hlz|[K1 _]]; [|exact K1]. exfalso. cbn in Hlz. destruct HL as [->|[HL|[_ K1]]]; [rewrite Hq in Hnx; injection Hnx as <-; rewrite Lq in Hlz; cbn in Hlz; lia|rewrite Lq in HL; cbn in HL; lia|rewrite K1 in Hlz; cbn in Hlz; lia]. }
      destruct (v_node _ _ _ _ V _ _ Hx0 Hnx) as (Elx & _).
      destruct (child_origin _ _ _ _ _ _ _ _ V Hnx K Hz) as [L|[L|(e0 & L1 & L2 & L3)]]; [congruence|congruence|].
      destruct (below2_step _ _ _ e0 (IH _ Hnx Lx) (eq_trans (eq_sym Elx) Lx) L1 (eq_trans L2 Lx) L3) as [M|M]; [left; now right|now right]. }
    assert (Hbp := Hb _ _ Hqp Hp Lp). destruct (v_node _ _ _ _ V _ _ Hp0 Hp) as (Elp & _).
    destruct (v_prov _ _ _ _ V _ _ _ Hp (Hincl _ Hine)) as [[L _]|(e0 & L1 & L2 & L3)]; [congruence|]. rewrite <- Ee in L3.
    destruct (below2_step _ _ _ e0 Hbp (eq_trans (eq_sym Elp) Lp) L1 (eq_trans L2 Lp) L3) as [M|(e1 & r & M1 & M2 & M3 & M4 & M5)].
    - apply inside_size in M; [lia| |]; congruence.
    - apply (NDC e1 r M1 M2); [|exact M5]. destruct M4 as [<-|M4]; [exact M3|eapply inside_trans; eassumption].
  Qed.

  (** ** Resolving placeholders *)
  Lemma no_device e : Declared ps e -> level_of e <> LDevice.
  Proof. destruct e as [|?|[?|? ?]|?|?]; cbn; try discriminate; tauto. Qed.
  Lemma root_kids W g KS c nc : NInv ps W g KS -> Kid g 0 c -> get_node g c = Some nc -> n_level nc = LPeripheral.
  Proof.
    intros V K Hc. assert (Hr := v_root _ _ _ _ V). assert (He : is_elem g 0 = true) by (unfold is_elem; now rewrite Hr). destruct (child_level _ _ _ _ _ _ _ V Hr K) as (_ & nc' & Hnc & Elc & _). rewrite Hc in Hnc. injection Hnc as <-.
    destruct (v_kids _ _ _ _ V _ He) as (fams & HP & HF). apply (Permutation_in _ HP) in K. destruct (Fams_in _ _ _ _ _ _ _ _ HF K) as (e & fam & Hine & _ & Hfam & Hin). destruct (Fam_level _ _ _ _ _ _ _ _ Hfam Hin) as (nc' & Hnc & Hl). rewrite Hc in Hnc. injection Hnc as <-.
    rewrite Elc, Hl. destruct (v_prov _ _ _ _ V _ _ _ Hr Hine) as [[_ L]|(e0 & L1 & L2 & L3)]; [exact L|]. exfalso. cbn in L2. destruct L1 as [->|[[L1 _] _]]; [destruct L3|]. exact (no_device _ L1 L2).
  Qed.
  Lemma per_parents W g KS p c nc : NInv ps W g KS -> EInv g -> Kid g p c -> get_node g c = Some nc -> n_level nc = LPeripheral -> p = 0%nat.
  Proof.
    intros V E K Hc Hl. destruct (Nat.eq_dec p 0) as [|Hp]; [assumption|exfalso]. apply ckids_In in K as K'. destruct K' as (t & K1 & K2). destruct (w_child _ E _ _ _ K1 K2) as [Kp _]. apply is_elem_iff in Kp as [np Kp].
    destruct (child_level _ _ _ _ _ _ _ V Kp K) as (_ & nc' & Hnc & _ & Hlt). rewrite Hc in Hnc. injection Hnc as <-. rewrite Hl in Hlt. destruct (v_node _ _ _ _ V _ _ Hp Kp) as (El & HD & _).
    apply (no_device _ HD). rewrite <- El. destruct Hlt as [Hlt|[_ Hlt]]; [|discriminate]. destruct (n_level np); cbn in Hlt; try lia. reflexivity.
  Qed.
  (** a sibling of an element, as the search sees it, is a child of its parent *)
  Lemma sibling_kid g KS c n b nb : Iv ps nobody g KS -> c <> 0%nat -> get_node g c = Some n -> derived_of (n_parsed n) <> None -> n_level n <> LEnum -> get_node g b = Some nb -> n_level nb = n_level n ->
    In b (get_element_siblings g c) -> exists p, Kid g p c /\ Kid g p b.
  Proof.
    intros (Wf & V & E) Hc0 Hc Hdc Hev Hb Hl Hin. unfold get_element_siblings in Hin. destruct (get_element_parents g c) as [|p l] eqn:Ep; [destruct Hin|].
    assert (Kp : Kid g p c) by (apply (parents_ckids _ _ _ E); rewrite Ep; now left). exists p. split; [exact Kp|].
    apply filter_In in Hin as [Hin _]. unfold successors in Hin. apply dedup_In in Hin as [Hin _]. apply in_map_iff in Hin as ([[a x] t] & Ex & Hin). cbn in Ex. subst x. unfold out_edges in Hin. apply filter_In in Hin as [Hin Ea]. cbn in Ea. apply Nat.eqb_eq in Ea. subst a.
    destruct (is_child t) eqn:Et; [apply ckids_In; eauto|]. exfalso.
    assert (Hpe : is_elem g p = true) by (apply ckids_In in Kp as (u & K1 & K2); apply (w_child _ E _ _ _ K1 K2)). apply is_elem_iff in Hpe as [np Hp].
    destruct t; try discriminate.
    - destruct (w_ph _ E _ _ Hin) as [(q & m & K & _)|(_ & q & m & K & _)]; [apply get_node_slot in Hp|apply get_node_slot in Hb]; congruence.
    - destruct (w_der _ E _ _ Hin) as (na & nb' & K1 & K2 & K3 & K4). rewrite Hp in K1. injection K1 as <-. rewrite Hb in K2. injection K2 as <-.
      destruct (child_level _ _ _ _ _ _ _ V Hp Kp) as (_ & n' & Hn' & Elc & Hlt). rewrite Hc in Hn'. injection Hn' as <-. rewrite K3, Hl in Hlt.
      assert (Lc : n_level n = LCluster) by (destruct Hlt as [Hlt|[Hlt _]]; [lia|exact Hlt]).
      destruct K4 as [[_ K4]|(path & K4 & K5)]; [congruence|].
      assert (Hp0 : p <> 0%nat). { intros ->. rewrite (v_root _ _ _ _ V) in Hp. injection Hp as <-. cbn in K3. congruence. }
      assert (Hb0 : b <> 0%nat). { intros ->. rewrite (v_root _ _ _ _ V) in Hb. injection Hb as <-. cbn in Hl. congruence. }
      assert (HM : MayBeBase ps (n_parsed np)) by (eapply (may_base ps nobody g KS p b); eauto; congruence).
      destruct (v_node _ _ _ _ V _ _ Hp0 Hp) as (Elp & _).
      destruct (child_origin _ _ _ _ _ _ _ _ V Hp Kp Hc) as [L|[L|(e0 & L1 & L2 & L3)]]; [congruence|congruence|].
      assert (HM0 : MayBeBase ps e0) by (destruct L1 as [->|[L1 _]]; auto). apply (NDC e0 (n_parsed n) HM0); [congruence|now apply Inside_kid|]. split; [congruence|exact Hdc].
  Qed.
  Lemma sc_resolve_ph g KS h ws g' : Iv ps nobody g KS -> Sh g -> Sc nobody g KS -> resolve_placeholder g h = (ws, Ok g') -> Sc nobody g' KS.
  Proof.
    intros I S C H. destruct (resolve_ph_inv _ _ _ _ H) as [->|(p & pn & c & n & path & b & Hp & Hpd & Hph & Hhc & Hh & Hc & Hb & Hr & Eg)]; [exact C|].
    assert (E := proj2 (proj2 I)). assert (V := proj1 (proj2 I)). assert (Hhe := ph_not_elem _ _ _ Hh).
    assert (Hn : forall i, get_node g' i = get_node g i).
    { intros i. rewrite Eg. unfold get_node. change (get_slot (mk_graph _ _ _ _) i) with (get_slot (remove_placeholder g h) i). rewrite (remove_ph_slot _ _ _ Hh).
      destruct (Nat.eqb_spec h i) as [->|]; [now rewrite Hh|reflexivity]. }
    assert (Hck : forall x y, Kid g' x y <-> Kid g x y).
    { intros x y. unfold Kid. rewrite Eg. cbn [g_edges]. rewrite ckids_cons. cbn [is_child andb]. assert (Ef : ckids (g_edges (remove_placeholder g h)) x = ckids (g_edges g) x); [|rewrite Ef; tauto]. apply ckids_filter. intros [[a z] t] Hi Ht. cbn in *. destruct (w_child _ E _ _ _ Hi Ht).
      destruct (Nat.eqb_spec a h), (Nat.eqb_spec z h); subst; congruence || reflexivity. }
    assert (Kpc : Kid g p c) by (apply (w_link _ E p h c); auto; apply is_elem_iff; eauto).
    constructor.
    - intros x y z K1 K2. apply Hck in K1, K2. eapply (sc_kid _ _ _ C); eassumption.
    - intros b' i n' path' He Hi Hd Hev Hder Hpl. rewrite Hn in Hi. rewrite Eg in He. cbn [g_edges] in He. destruct He as [He|He].
      2: { apply filter_In in He as [He _]. destruct (sc_der _ _ _ C _ _ _ _ He Hi Hd Hev Hder Hpl) as (y & ny & K1 & K2 & K3 & K4). exists y, ny. rewrite Hn. split; [now apply Hck|]. split; [exact K2|]. split; [exact K3|].
           intros q Kq. apply K4. now apply Hck. }
      injection He as <- <-. rewrite Hc in Hi. injection Hi as <-.
      assert (path' = path) as ->. { destruct (w_ph _ E _ _ Hhc) as [(q & m & K1 & K2 & _ & K4)|(K1 & _)]; [|congruence]. rewrite Hh in K1. injection K1 as <-. rewrite Hc in K2. injection K2 as <-. congruence. }
      destruct (path_base _ _ _ _ _ _ Hb) as (nb & Hnb & Hlb & _). apply path_resolving_spec in Hb. cbn in Hb. unfold plain_name in Hpl. rewrite Hpl in Hb.
      destruct (child_level _ _ _ _ _ _ _ V Hp Kpc) as (Hc0 & _).
      destruct Hb as [[Hb _]|(_ & Hb & _)].
      + inversion Hb as [name cands j m K1 K2 K3 K4 K5|? ? ? ? ? ? ? ? ? ? K]; subst; [|congruence].
        destruct (sibling_kid g KS c n b nb I Hc0 Hc) as (p1 & P1 & P2); auto; [rewrite Hder; discriminate|].
        assert (Hd1 : exists n1, get_node g p1 = Some n1 /\ n_done n1 = true).
        { destruct (Nat.eq_dec p1 p) as [->|Hne]; [eauto|]. destruct (sh_co _ S _ _ _ P1 Kpc Hne) as (n1 & n2 & t & L1 & _ & L2 & _). eauto. }
        destruct Hd1 as (n1 & L1 & L2). exists p1, n1. rewrite Hn. split; [now apply Hck|]. split; [exact L1|]. split; [now left|]. intros q Kq. apply Hck in Kq. rewrite (sc_kid _ _ _ C p1 q c P1 Kq). apply incl_refl.
      + inversion Hb as [name cands j m K1 K2 K3 K4 K5|? ? ? ? ? ? ? ? ? ? K]; subst; [|congruence].
        rewrite (children_ckids _ _ E) in K1. assert (Lb := root_kids _ _ _ _ _ V K1 Hnb). exists 0%nat, root_node. rewrite Hn. split; [now apply Hck|]. split; [apply (v_root _ _ _ _ V)|]. split; [now left|].
        intros q Kq. apply Hck in Kq. rewrite (per_parents _ _ _ _ _ _ V E Kq Hc); [apply incl_refl|]. congruence.
  Qed.

  (** ** Copying the descendants of the base *)
  Lemma sc_rep g KS b i nb n g1 m : Iv ps nobody g KS -> get_node g b = Some nb -> get_node g i = Some n -> i <> 0%nat -> n_done n = false -> Replicated g b i g1 m -> Sh g -> Sc nobody g KS -> Sc (only i) g1 (KS1 KS b i m).
  Proof.
    intros I Hb Hi Hi0 Hd R S C. assert (Wf := proj1 I). assert (V := proj1 (proj2 I)). assert (E := proj2 (proj2 I)).
    assert (Hbe : is_elem g b = true) by (apply is_elem_iff; eauto).
    assert (Kold := kid_old ps NDC g KS b i nb n g1 m I Hb Hi R). assert (Knew := kid_new ps NDC g KS b i nb n g1 m I Hb Hi R).
    assert (KSo := rep_KS_old ps g KS b i g1 m I R). assert (KSc := rep_KS g KS b i g1 m R).
    assert (Hmix : forall c0 p0 p', In (p0, p') m -> Kid g b c0 -> Kid g p0 c0 -> False).
    { intros c0 p0 p' Hm K1 K2. assert (Hpe : is_elem g p0 = true) by (apply ckids_In in K2 as (t & K3 & K4); apply (w_child _ E _ _ _ K3 K4)).
      assert (Hbel := proj1 (desc_kids g b p0 E Hbe (rep_desc g b i g1 m R p0 p' Hm)) Hpe). exact (depth_apart ps nobody g KS V E S b p0 c0 Hbe Hbel K1 K2). }
    assert (Hsolo := undone_solo g i n S Hi Hd).
    assert (Hcopy : forall x, get_slot g1 x <> None -> get_slot g x = None -> exists x0, In (x0, x) m).
    { intros x H1 H2. destruct (rp_only _ _ _ _ _ R _ H1) as [K|K]; [congruence|]. apply in_map_iff in K as ([d j] & <- & K). eauto. }
    assert (HKi : get_slot g i <> None) by (apply get_node_slot in Hi; congruence).
    assert (KSi : KS1 KS b i m i = KS i ++ KS b) by (rewrite KSo, Nat.eqb_refl; auto).
    constructor.
    - intros p q c Kp Kq. destruct (get_slot g c) as [s|] eqn:Ec.
      + assert (Hc : get_slot g c <> None) by congruence. apply (Kold p c Hc) in Kp. apply (Kold q c Hc) in Kq. destruct (kid_slots ps g KS I _ _ Kp) as [Hp _]. destruct (kid_slots ps g KS I _ _ Kq) as [Hq _].
        rewrite (KSo p Hp), (KSo q Hq). destruct (Nat.eqb_spec p i) as [->|Hpi].
        * rewrite (Hsolo c q Kp Kq), Nat.eqb_refl. reflexivity.
        * destruct (Nat.eqb_spec q i) as [->|Hqi]; [destruct (Hpi (Hsolo c p Kq Kp))|]. eapply (sc_kid _ _ _ C); eassumption.
      + destruct (Hcopy c) as [c0 Hc0]; [apply ckids_In in Kp as (t & K & _); apply (wf_edge _ (rp_wf _ _ _ _ _ R) _ _ _ K)|exact Ec|].
        apply (Knew p c0 c Hc0) in Kp. apply (Knew q c0 c Hc0) in Kq. destruct Kp as [[-> Kp]|(p0 & Hpm & Kp)], Kq as [[-> Kq]|(q0 & Hqm & Kq)]; [reflexivity|destruct (Hmix _ _ _ Hqm Kp Kq)|destruct (Hmix _ _ _ Hpm Kq Kp)|].
        rewrite (KSc _ _ Hpm), (KSc _ _ Hqm). eapply (sc_kid _ _ _ C); eassumption.
    - intros a x nx path He Hx Hdx Hev Hder Hpl.
      (* the parents of a copy *)
      assert (Hpar : forall x0 L, In (x0, x) m -> (forall p, Kid g p x0 -> incl L (KS p)) -> forall p, Kid g1 p x -> incl L (KS1 KS b i m p)).
      { intros x0 L Hm HL p Kp. apply (Knew p x0 x Hm) in Kp as [[-> Kp]|(p0 & Hpm & Kp)]; [rewrite KSi; apply incl_appr; auto|rewrite (KSc _ _ Hpm); auto]. }
      assert (Hmono : forall u w, Kid g u w -> Kid g1 u w) by (intros u w K; apply (kid_to ps NDC g KS b i nb n g1 m I Hb Hi R); now left).
      assert (Hold : forall y ny, get_node g y = Some ny -> n_done ny = true \/ nobody y -> get_node g1 y = Some ny /\ (n_done ny = true \/ only i y) /\ KS1 KS b i m y = KS y).
      { intros y ny Hy [Hyd|[]]. split; [now apply (rep_oldn g b i g1 m R)|]. split; [now left|]. rewrite KSo by (apply get_node_slot in Hy; congruence). destruct (Nat.eqb_spec y i) as [->|]; [congruence|reflexivity]. }
      destruct (rp_edges _ _ _ _ _ R) as (new & Hes & Hnew). rewrite Hes in He. apply in_app_iff in He as [He|He].
      + apply Hnew in He as [(d & x0 & Hdm & Hxm & He)|[(x0 & Hxm & He & _)|(_ & c & t0 & _ & _ & Ht)]].
        * rewrite (rep_node ps g KS b i g1 m I R x0 x Hxm) in Hx. destruct (sc_der _ _ _ C _ _ _ _ He Hx Hdx Hev Hder Hpl) as (y & ny & K1 & K2 & K3 & K4).
          assert (Hde : is_elem g d = true) by (apply ckids_In in K1 as (t & K5 & K6); apply (w_child _ E _ _ _ K5 K6)).
          assert (Hbel := proj1 (desc_kids g b d E Hbe (rep_desc g b i g1 m R d a Hdm)) Hde). destruct (parent_below g b i g1 m R d Hbel) as (z & Kz & Hz).
          assert (EK : KS z = KS y) by (eapply (sc_kid _ _ _ C); eassumption).
          destruct Hz as [->|[z' Hz]].
          { exists i, n. split; [apply (Knew i d a Hdm); left; auto|]. split; [now apply (rep_oldn g b i g1 m R)|]. split; [right; reflexivity|].
            intros p Kp. apply (Knew p x0 x Hxm) in Kp as [[-> Kp]|(p0 & Hpm & Kp)]; [apply incl_refl|]. exfalso.
            assert (Hpe : is_elem g p0 = true) by (apply ckids_In in Kp as (t & K5 & K6); apply (w_child _ E _ _ _ K5 K6)).
            assert (Hbp := proj1 (desc_kids g b p0 E Hbe (rep_desc g b i g1 m R p0 p Hpm)) Hpe). apply clos_trans_t1n in Hbp.
            assert (Hq : exists q, Kid g b q /\ clos_refl_trans nat (Kid g) q p0).
            { destruct Hbp as [q K|q r K Hr]; [exists q; split; [exact K|apply rt_refl]|]. exists q. split; [exact K|]. apply clos_t1n_trans in Hr. clear - Hr. induction Hr as [? ? K|? ? ? _ IH1 _ IH2]; [now apply rt_step|eapply rt_trans; eassumption]. }
            destruct Hq as (q & Kq & Hqp). apply (no_incl nobody g KS b q p0 V E Kq Hqp). rewrite EK. auto. }
          assert (Hzd : exists nz, get_node g z = Some nz /\ n_done nz = true).
          { destruct (Nat.eq_dec z y) as [->|Hne]; [destruct K3 as [K3|[]]; eauto|]. destruct (sh_co _ S _ _ _ Kz K1 Hne) as (n1 & n2 & t & L1 & _ & L2 & _). eauto. }
          destruct Hzd as (nz & L1 & L2). exists z', nz. split; [apply (Knew z' d a Hdm); right; eauto|]. split; [rewrite (rep_node ps g KS b i g1 m I R z z' Hz); exact L1|]. split; [now left|].
          rewrite (KSc _ _ Hz), EK. apply (Hpar x0); auto.
        * rewrite (rep_node ps g KS b i g1 m I R x0 x Hxm) in Hx. destruct (sc_der _ _ _ C _ _ _ _ He Hx Hdx Hev Hder Hpl) as (y & ny & K1 & K2 & K3 & K4). destruct (Hold _ _ K2 K3) as (L1 & L2 & L3).
          exists y, ny. split; [now apply Hmono|]. split; [exact L1|]. split; [exact L2|]. rewrite L3. apply (Hpar x0); auto.
        * exfalso. symmetry in Ht. exact (attach_not_der g b c Ht).
      + destruct (wf_edge _ Wf _ _ _ He) as [_ Hxs]. assert (Hxg : get_node g x = Some nx).
        { destruct (get_slot g x) as [s|] eqn:Es; [|congruence]. apply get_node_slot in Hx. rewrite (rep_old g b i g1 m R x s Es) in Hx. injection Hx as ->. now apply get_node_slot. }
        destruct (sc_der _ _ _ C _ _ _ _ He Hxg Hdx Hev Hder Hpl) as (y & ny & K1 & K2 & K3 & K4). destruct (Hold _ _ K2 K3) as (L1 & L2 & L3).
        exists y, ny. split; [now apply Hmono|]. split; [exact L1|]. split; [exact L2|]. rewrite L3. intros p Kp. apply (Kold p x Hxs) in Kp. rewrite KSo by (apply (kid_slots ps g KS I _ _ Kp)).
        destruct (Nat.eqb_spec p i) as [->|]; [apply incl_appl|]; auto.
  Qed.
  Lemma sc_same (W W' : nat -> Prop) g g' KS i : Sc W g KS -> (forall x, ckids (g_edges g') x = ckids (g_edges g) x) -> (forall a x, In (a, x, DERIVE) (g_edges g') -> In (a, x, DERIVE) (g_edges g)) ->
    (forall x, x <> i -> get_node g' x = get_node g x) -> (exists n', get_node g' i = Some n' /\ n_done n' = true) -> (forall x, W x -> W' x \/ x = i) -> Sc W' g' KS.
  Proof.
    intros C Hck Hed Hn (n' & Hi & Hdi) HW. assert (HK : forall p c, Kid g' p c <-> Kid g p c) by (intros p c; unfold Kid; rewrite Hck; tauto). constructor.
    - intros p q c K1 K2. apply HK in K1, K2. eapply (sc_kid _ _ _ C); eassumption.
    - intros b x n path He Hx Hd Hev Hder Hpl. assert (Hxi : x <> i) by (intros ->; congruence). rewrite Hn in Hx by auto. destruct (sc_der _ _ _ C _ _ _ _ (Hed _ _ He) Hx Hd Hev Hder Hpl) as (y & ny & K1 & K2 & K3 & K4).
      assert (Hy : exists ny', get_node g' y = Some ny' /\ (n_done ny' = true \/ W' y)).
      { destruct (Nat.eq_dec y i) as [->|Hyi]; [eauto|]. exists ny. rewrite Hn by auto. split; [exact K2|]. destruct K3 as [K3|K3]; [now left|]. destruct (HW _ K3); [now right|contradiction]. }
      destruct Hy as (ny' & L1 & L2). exists y, ny'. split; [now apply HK|]. split; [exact L1|]. split; [exact L2|]. intros p Kp. apply K4. now apply HK.
  Qed.
  (** ** Marking a node as processed *)
  Lemma sc_prepared g KS i n base bv g1 KS2 : Iv ps nobody g KS -> Sh g -> Sc nobody g KS -> i <> 0%nat -> get_node g i = Some n -> n_done n = false -> BaseOf g i n base bv -> Prep g KS i base g1 KS2 -> Sc (only i) g1 KS2.
  Proof.
    intros I S C Hi0 Hi Hd HB HP. destruct base as [b|].
    - destruct HP as (m & R & ->). destruct HB as [(_ & HB & _)|(path & b' & nb & Hp & HB & Hbe & Hb & Hl & _)]; [discriminate|]. injection HB as <-.
      assert (Hder := base_edge _ _ _ Hbe). destruct (derived_edge ps NDC nobody g KS b i n path I Hi0 Hi Hd Hp Hder) as (nb' & Hb' & _ & _ & Hb0 & Hcl & Hdv & _).
      assert (I0 : Iv ps nobody (remove_edge g b i) KS) by (exact (iv_remove ps nobody g KS b i nb n I Hb Hi Hcl)).
      assert (Hck : forall x, ckids (g_edges (remove_edge g b i)) x = ckids (g_edges g) x) by (intros x; apply ckids_remove; intros t Ht; rewrite (same_level_edges ps nobody g KS b i nb n t I Hb Hi Hcl Ht); reflexivity).
      assert (S0 : Sh (remove_edge g b i)) by (apply (sh_same _ _ S); auto).
      apply (sc_rep (remove_edge g b i) KS b i nb n g1 m); auto.
      assert (HK : forall p c, Kid (remove_edge g b i) p c <-> Kid g p c) by (intros p c; unfold Kid; rewrite Hck; tauto). constructor.
      + intros p q c K1 K2. apply HK in K1, K2. eapply (sc_kid _ _ _ C); eassumption.
      + intros a x nx path' He Hx Hdx Hev Hderx Hpl. destruct (sc_der _ _ _ C a x nx path') as (y & ny & K1 & K2 & K3 & K4); auto; [eapply remove_first_In; exact He|].
        exists y, ny. split; [now apply HK|]. split; [exact K2|]. split; [exact K3|]. intros p Kp. apply K4. now apply HK.
    - destruct HP as [-> ->]. constructor; [apply (sc_kid _ _ _ C)|]. intros a x nx path' He Hx Hdx Hev Hderx Hpl. destruct (sc_der _ _ _ C a x nx path' He Hx Hdx Hev Hderx Hpl) as (y & ny & K1 & K2 & K3 & K4). exists y, ny. split; [exact K1|]. split; [exact K2|]. split; [destruct K3 as [K3|[]]; now left|exact K4].
  Qed.
  Lemma sc_mark g1 KS i n n' cs g' : Iv ps (only i) g1 KS -> Sc (only i) g1 KS -> get_node g1 i = Some n -> n_done n' = true ->
    (forall j, get_slot g' j = if Nat.eqb i j then Some (NElem n') else get_slot g1 j) -> g_edges g' = set_resolved (g_edges g1) i cs -> (forall c, In c cs -> In c (ckids (g_edges g1) i)) -> Sc nobody g' KS.
  Proof.
    intros I C Hi Hd Hs He Hcs. destruct (set_resolved_facts i cs (g_edges g1)) as (C1 & C2); [intros c t Hc Hin; exact (child_edges ps NDC (only i) g1 KS i n c t I Hi (Hcs _ Hc) Hin)|]. rewrite <- He in C1, C2.
    apply (sc_same (only i) nobody g1 g' KS i C); auto.
    - intros a x K. now apply C2 in K.
    - intros x Hx. apply get_node_same. rewrite Hs. destruct (Nat.eqb_spec i x); congruence.
    - exists n'. split; [|exact Hd]. apply get_node_slot. now rewrite Hs, Nat.eqb_refl.
  Qed.
  Lemma sc_instances gu g' i n n' (xs : list inst) vs KS KS' : WF gu -> EInv gu -> Solo gu i -> Sc nobody gu KS -> get_node gu i = Some n' -> n_done n' = true ->
    map (fun x => (i_par x, i_val x)) xs = list_prod (get_element_parents gu i) vs -> NoDup (map i_idx xs) ->
    (forall x, In x xs -> get_slot gu (i_idx x) = None /\ get_slot g' (i_idx x) = Some (NElem (inst_node n (i_val x)))) ->
    (forall j, ~ In j (map i_idx xs) -> get_slot g' j = get_slot gu j) ->
    g_edges g' = rev (map (fun jc => (fst jc, snd jc, CHILD_RESOLVED)) (list_prod (map i_idx xs) (get_element_childrens gu i))) ++ rev (map (fun x => (i_par x, i_idx x, CHILD_RESOLVED)) xs) ++ g_edges gu ->
    (forall j, In j (map i_idx xs) -> KS' j = KS i) -> (forall x, ~ In x (map i_idx xs) -> KS' x = KS x) -> Sc nobody g' KS'.
  Proof.
    intros Wf E Hsolo C Hi Hdn Hxs Hnd Hx Ho He HK1 HK2.
    assert (Hpar : forall x, In x xs -> Kid gu (i_par x) i).
    { intros x K. apply (in_map (fun x => (i_par x, i_val x))) in K. rewrite Hxs in K. apply in_prod_iff in K as [K1 K2]. now apply (parents_ckids _ _ _ E). }
    assert (Hkid : forall a b, Kid g' a b <-> In a (map i_idx xs) /\ Kid gu i b \/ (exists x, In x xs /\ a = i_par x /\ b = i_idx x) \/ Kid gu a b).
    { intros a b. unfold Kid. rewrite !ckids_In. rewrite He. setoid_rewrite in_app_iff. setoid_rewrite in_app_iff. split.
      - intros (t & [K|[K|K]] & Ht).
        + left. apply in_rev, in_map_iff in K as ([j c] & K & K2). cbn in K. injection K as -> -> _. apply in_prod_iff in K2 as [K2 K3]. split; [exact K2|]. rewrite (children_ckids _ _ E) in K3. now apply ckids_In in K3.
        + right. left. apply in_rev, in_map_iff in K as (x & K & K2). injection K as <- <- _. eauto.
        + right. right. eauto.
      - intros [[K1 K2]|[(x & K & -> & ->)|(t & K & Ht)]].
        + exists CHILD_RESOLVED. split; [|reflexivity]. left. apply in_rev. rewrite rev_involutive. apply in_map_iff. exists (a, b). split; [reflexivity|]. apply in_prod; [exact K1|]. rewrite (children_ckids _ _ E). now apply ckids_In.
        + exists CHILD_RESOLVED. split; [|reflexivity]. right. left. apply in_rev. rewrite rev_involutive. apply in_map_iff. eauto.
        + exists t. auto. }
    assert (Hfr : forall j, In j (map i_idx xs) -> get_slot gu j = None) by (intros j K; apply in_map_iff in K as (x & <- & K); now apply Hx).
    assert (Hks : forall a b, Kid gu a b -> ~ In a (map i_idx xs) /\ ~ In b (map i_idx xs)).
    { intros a b K. apply ckids_In in K as (t & K & _). destruct (wf_edge _ Wf _ _ _ K) as [K1 K2]. split; intros K3; apply Hfr in K3; contradiction. }
    assert (Hpj : forall x a, In x xs -> Kid g' a (i_idx x) -> a = i_par x).
    { intros x a K1 K2. assert (Kin := in_map i_idx _ _ K1). apply Hkid in K2 as [[_ K2]|[(y & K3 & -> & K4)|K2]]; [destruct (Hks _ _ K2); contradiction| |destruct (Hks _ _ K2); contradiction].
      f_equal. clear - Hnd K1 K3 K4. induction xs as [|z zs IH]; [destruct K1|]. cbn in Hnd. inversion Hnd as [|? ? L1 L2]; subst. destruct K1 as [->|K1], K3 as [->|K3]; auto.
      - destruct L1. rewrite K4. now apply in_map.
      - destruct L1. rewrite <- K4. now apply in_map. }
    (* every parent of an old node is as good as an old parent *)
    assert (Hlike : forall p c, ~ In c (map i_idx xs) -> Kid g' p c -> exists p0, Kid gu p0 c /\ KS' p = KS p0).
    { intros p c Hc K. apply Hkid in K as [[K1 K2]|[(y & K1 & _ & ->)|K]]; [exists i; auto|destruct Hc; now apply in_map|]. exists p. split; [exact K|]. apply HK2, (Hks _ _ K). }
    constructor.
    - intros p q c Kp Kq. destruct (in_dec Nat.eq_dec c (map i_idx xs)) as [Kin|Kin].
      + apply in_map_iff in Kin as (y & <- & Ky). now rewrite (Hpj _ _ Ky Kp), (Hpj _ _ Ky Kq).
      + destruct (Hlike _ _ Kin Kp) as (p0 & P1 & ->). destruct (Hlike _ _ Kin Kq) as (q0 & Q1 & ->). eapply (sc_kid _ _ _ C); eassumption.
    - intros b x nx path Hed Hnx Hdx Hev Hder Hpl. assert (Hed' : In (b, x, DERIVE) (g_edges gu)).
      { rewrite He, !in_app_iff in Hed. destruct Hed as [K|[K|K]]; [| |exact K]; apply in_rev, in_map_iff in K as (y & K & _); discriminate K. }
      assert (Hxo : ~ In x (map i_idx xs)) by (intros K; apply Hfr in K; destruct (wf_edge _ Wf _ _ _ Hed'); contradiction).
      assert (Hxu : get_node gu x = Some nx) by (rewrite <- Hnx; symmetry; apply get_node_same, Ho, Hxo).
      destruct (sc_der _ _ _ C _ _ _ _ Hed' Hxu Hdx Hev Hder Hpl) as (y & ny & K1 & K2 & K3 & K4). destruct (Hks _ _ K1) as [Hyo _]. exists y, ny. split; [apply Hkid; auto|].
      split; [rewrite <- K2; apply get_node_same, Ho, Hyo|]. split; [exact K3|]. rewrite (HK2 _ Hyo). intros p Kp. destruct (Hlike _ _ Hxo Kp) as (p0 & P1 & ->). auto.
  Qed.
End Scope.

(** ** The elaboration of the element that is processed next *)
Section Strict.
  Context (ps0 : list svd_periph) (NDC : forall a e, MayBeBase ps0 a -> level_of a = LCluster -> Inside a e -> ~ derived_cluster e).
  Local Notation ps := (strict ps0).
  Lemma has_parent g KS i n : Iv ps nobody g KS -> Sh g -> i <> 0%nat -> get_node g i = Some n -> exists p, Kid g p i.
  Proof.
    intros I S Hi0 Hi. assert (H := sh_root _ S i (proj2 (is_elem_iff _ _) (ex_intro _ n Hi))). apply clos_rt_rtn1 in H. destruct H as [|p i K _]; [congruence|eauto].
  Qed.
  Lemma sc_elabs g KS i : Iv ps nobody g KS -> Sh g -> Sc nobody g KS -> i <> 0%nat -> undone_at g i -> Elabs ps g KS i.
  Proof.
    intros I S C Hi0 (n0 & Hi0' & Hd) n base bv vs tv Hi Hev HB HDes. rewrite Hi in Hi0'. injection Hi0' as <-.
    assert (G : forall p, Kid g p i -> Elab ps0 (KS p) (n_parsed n) (KS i ++ match base with Some b => KS b | None => [] end) vs tv).
    2: { split; [exact G|]. destruct (has_parent _ _ _ _ I S Hi0 Hi) as [p Kp]. exists (KS p). exact (G p Kp). }
    intros p Kp. destruct (base_value ps NDC g KS i n base bv I Hi0 Hi Hd Hev HB) as (_ & -> & [(H1 & -> & ->)|(path & b & nb & v & sc & vsb & tvb & H1 & -> & -> & He & Hb & Hb0 & Hdb & H2 & H3 & Hnb & Hv & H4 & H5 & H6)]).
    - rewrite app_nil_r. now apply Elab_own.
    - destruct (list_eq_dec string_dec (split_on "." path) [path]) as [Hpl|Hpl].
      2: { eapply (Elab_derived ps0 _ _ path sc (n_parsed nb) (KS b) vsb tvb v); auto. intros K. contradiction. }
      assert (Elv := proj1 (v_node _ _ _ _ (proj1 (proj2 I)) _ _ Hi0 Hi)).
      assert (Hevl : n_level n <> LEnum) by (rewrite Elv; destruct (n_parsed n) as [|?|[?|? ?]|?|?]; try discriminate; destruct (Hev e eq_refl)).
      destruct (sc_der _ _ _ C b i n path He Hi Hd Hevl H1 Hpl) as (y & ny & Ky & Hy & _ & Hinc).
      assert (Hye : is_elem g y = true) by (apply is_elem_iff; eauto). destruct (v_kids _ _ _ _ (proj1 (proj2 I)) _ Hye) as (fams & HP & HF). apply (Permutation_in _ HP) in Ky.
      destruct (Fams_in _ _ _ _ _ _ _ _ HF Ky) as (e & fam & Hine & _ & Hfam & Hin).
      assert (Q : exists vs' tv', n_parsed nb = e /\ Elab ps0 (KS y) e (KS b) vs' tv' /\ (In v vs' \/ tv' = Some v)).
      { clear HF HP Ky. destruct Hfam as [e c m K1 K2 K3|e c m K1 K2 K3|e1 e' c m K1 K2 K3 K4|e c m v' K1 K2 K3 K4 K5 K6|e c m ks vs' tv' K1 K2 K3 K4 K5 K6 K7].
        - destruct Hin as [->|[]]. congruence.
        - destruct K1.
        - destruct Hin as [->|[]]. rewrite Hb in K1. injection K1 as <-. rewrite K3 in Hnb. destruct Hnb. exact Logic.I.
        - destruct Hin as [->|[]]. rewrite Hb in K1. injection K1 as <-. rewrite Hv in K5. injection K5 as <-. exists [v], None. split; [exact K4|]. split; [exact K6|]. left. now left.
        - destruct Hin as [->|Hin]; [rewrite Hb in K1; injection K1 as <-; rewrite Hv in K5; injection K5 as <-; exists vs', (Some v); auto|].
          exists vs', (Some tv'). cbn in K6. assert (Q : exists v', In v' vs' /\ Inst g KS e c b v').
          { clear - K7 Hin. induction K7 as [|j u js us H _ IH]; [destruct Hin|]. destruct Hin as [->|Hin]; [exists u; split; [now left|exact H]|]. destruct (IH Hin) as (u' & L1 & L2). exists u'. split; [now right|exact L2]. }
          destruct Q as (v' & Q1 & (mb & L1 & L2 & L3 & L4 & L5 & L6)). rewrite Hb in L1. injection L1 as <-. rewrite Hv in L5. injection L5 as <-. rewrite L6. auto. }
      destruct Q as (vs' & tv' & E1 & E2 & E3). apply (Elab_derived ps0 _ _ path (KS p) (n_parsed nb) (KS b) vs' tv' v); auto.
      + intros _. split; [reflexivity|]. rewrite E1. apply Hinc; auto.
      + rewrite E1. apply (elab_mono ps0 (KS y)); auto.
  Qed.
  Theorem sc_process g KS i ws g' : Iv ps nobody g KS -> Sh g -> Sc nobody g KS -> i <> 0%nat -> undone_at g i -> unlinked g i -> process_node g i = (ws, Ok g') ->
    exists KS', Iv ps nobody g' KS' /\ Sh g' /\ Sc nobody g' KS' /\ KS' 0%nat = KS 0%nat /\ Stays g g' i.
  Proof.
    intros I S C Hi0 Hu Hno H. assert (HEl := sc_elabs g KS i I S C Hi0 Hu). assert (S' := sh_process ps NDC g KS i ws g' I HEl S Hi0 Hu Hno H).
    destruct Hu as (n & Hi & Hd). destruct (process_node_inv _ _ _ _ H) as (n0 & base & bv & Hi2 & Hpd & HB & Hor). rewrite Hi in Hi2. injection Hi2 as <-.
    destruct Hor as [(e & He & w & H1)|(Hev & w & H1)].
    - destruct (iv_evc ps NDC _ _ _ _ _ _ _ _ _ I Hi0 Hi Hd Hno He HB H1) as (K1 & K2 & K3 & K4 & K5). exists KS. split; [exact K1|]. split; [exact S'|]. split; [|auto].
      assert (HK : forall p c, Kid g' p c <-> Kid g p c) by (intros p c; unfold Kid; rewrite K4; tauto).
      assert (Hed : forall a x t, In (a, x, t) (g_edges g') -> In (a, x, t) (g_edges g)) by (intros a x t K; destruct K5 as [K5|[b0 K5]]; rewrite K5 in K; [exact K|eapply remove_first_In; exact K]).
      constructor; [intros p q c P Q; apply HK in P, Q; eapply (sc_kid _ _ _ C); eassumption|].
      intros b x nx path Hex Hx Hdx Hevx Hder Hpl. assert (Hxi : x <> i).
      { intros ->. destruct (process_evc_spec _ _ _ _ _ _ (proj1 I) Hi H1) as [(_ & _ & Eg)|(b0 & nb & eb & g1 & _ & _ & _ & Hrest)].
        - apply get_node_slot in Hx. rewrite Eg, (set_node_slot _ _ _ _ Hi), Nat.eqb_refl in Hx. injection Hx as <-. discriminate Hdx.
        - cbn zeta in Hrest. destruct Hrest as (_ & _ & Hi1 & Eg). apply get_node_slot in Hx. rewrite Eg, (set_node_slot _ _ _ _ Hi1), Nat.eqb_refl in Hx. injection Hx as <-. discriminate Hdx. }
      rewrite K3 in Hx by auto. destruct (sc_der _ _ _ C _ _ _ _ (Hed _ _ _ Hex) Hx Hdx Hevx Hder Hpl) as (y & ny & L1 & L2 & L3 & L4).
      assert (Hyi : y <> i) by (intros ->; rewrite Hi in L2; injection L2 as <-; destruct L3 as [L3|[]]; congruence).
      exists y, ny. rewrite K3 by auto. split; [now apply HK|]. split; [exact L2|]. split; [exact L3|]. intros p Kp. apply L4. now apply HK.
    - destruct (process_dimable_inv _ _ _ _ _ _ _ H1) as (w0 & isd & names & displays & w' & v & vs & Hdim & Hcr & w'' & Hup).
      destruct (base_value ps NDC _ _ _ _ _ _ I Hi0 Hi Hd Hev HB) as (Hk & _). assert (HDes := created_described _ _ _ _ _ _ _ _ _ Hk Hdim Hcr). assert (HF := created_facts _ _ _ _ _ _ _ _ _ Hk Hdim Hcr).
      destruct (v_node _ _ _ _ (proj1 (proj2 I)) _ _ Hi0 Hi) as (Elv & _).
      destruct (HF v (or_introl eq_refl)) as [Bv Kv]. destruct isd.
      + destruct (update_dim_node_spec _ _ _ _ _ _ _ _ (proj1 I) Hi Hup) as (gu & xs & (wu & Hu) & Wf' & Hkeep & _ & Hxs & Hnd & Hx & Ho & He).
        destruct (with_name_facts (parsed_name (n_parsed n)) v (n_parsed n) bv 0) as (N1 & _ & _ & _ & _ & N2 & N3 & _).
        set (tv := with_name (parsed_name (n_parsed n)) v) in *. assert (A1 : true = false -> map without_dim (v :: vs) = [tv]) by discriminate. assert (A2 : kind_level tv = n_level n) by congruence.
        destruct (iv_update_node ps NDC g KS i n base bv tv true wu gu (map without_dim (v :: vs)) I HEl Hi0 Hi Hd Hno Hev Hpd HB HDes A1 N1 (N2 Bv) A2 Hu)
          as (g1 & KS1 & n' & cs & I1 & Ek0 & Iu & Hst & Hi1 & Hno1 & L1 & L2 & L3 & L4 & L5 & L6 & L7 & L8 & L9 & L10 & L11 & L12 & L13).
        destruct (sh_update ps NDC _ _ _ _ _ _ _ _ _ _ I S Hi0 Hi Hd Hno HB Hu) as [Su So].
        assert (C1 := sc_prepared ps NDC g KS i n base bv g1 KS1 I S C Hi0 Hi Hd HB L13). assert (Cu := sc_mark ps NDC g1 KS1 i n n' cs gu I1 C1 Hi1 L3 L7 L8 L9).
        destruct (iv_instances ps NDC (only i) g1 KS1 gu g' i n n' cs xs (map without_dim (v :: vs))) as (KS' & J1 & J2 & J3 & J4); auto.
        * exists tv. auto.
        * intros y Hy. apply in_map_iff in Hy as (z & <- & Hz). destruct (HF z Hz) as [B1 B2]. destruct (without_dim_facts z (n_parsed n) bv 0) as (_ & _ & _ & _ & _ & M1 & M2 & _). split; [auto|congruence].
        * exists KS'. split; [exact J1|]. split; [exact S'|]. split; [|split; [congruence|]].
          { apply (sc_instances gu g' i n n' xs (map without_dim (v :: vs)) KS1 KS'); auto; [apply Iu|apply Iu|]. apply get_node_slot. now rewrite L7, Nat.eqb_refl. }
          eapply stays_trans; [exact Hst|]. apply stays_edges.
          { intros x nx _ K. apply get_node_slot. apply Hkeep. now apply get_node_slot. }
          intros a x K. rewrite He, !in_app_iff in K. destruct K as [K|[K|K]]; [| |exact K]; apply in_rev, in_map_iff in K as (y & K & _); discriminate K.
      + destruct HDes as [-> HDes]. assert (Hname : processed_name v = parsed_name (n_parsed n)) by (inversion HDes; subst; assumption).
        assert (A2 : kind_level v = n_level n) by congruence.
        destruct (iv_update_node ps NDC g KS i n base bv v false w'' g' [v] I HEl Hi0 Hi Hd Hno Hev Hpd HB HDes (fun _ => eq_refl) Hname Bv A2 Hup)
          as (g1 & KS1 & n' & cs & I1 & Ek0 & Iu & Hst & Hi1 & Hno1 & L1 & L2 & L3 & L4 & L5 & L6 & L7 & L8 & L9 & L10 & L11 & L12 & L13).
        assert (C1 := sc_prepared ps NDC g KS i n base bv g1 KS1 I S C Hi0 Hi Hd HB L13). assert (Cu := sc_mark ps NDC g1 KS1 i n n' cs g' I1 C1 Hi1 L3 L7 L8 L9).
        exists KS1. auto.
  Qed.

  Lemma sc_fold l : forall g KS ws g', Iv ps nobody g KS -> Sh g -> Sc nobody g KS -> NoDup l -> ~ In 0%nat l -> (forall i, In i l -> undone_at g i /\ unlinked g i) -> foldM process_node g l = (ws, Ok g') ->
    exists KS', Iv ps nobody g' KS' /\ Sh g' /\ Sc nobody g' KS' /\ KS' 0%nat = KS 0%nat.
  Proof.
    induction l as [|i l IH]; intros g KS ws g' I S C Hnd H0 Hl H; cbn in H; [injection H as _ <-; eauto|].
    apply bind_ok in H as (w1 & g1 & w2 & H1 & H & _). inversion Hnd as [|? ? Hni Hnd']; subst. destruct (Hl i (or_introl eq_refl)) as [Hu Hun].
    assert (Hi0 : i <> 0%nat) by (intros ->; apply H0; now left).
    destruct (sc_process g KS i w1 g1 I S C Hi0 Hu Hun H1) as (KS1 & I1 & S1 & C1 & E1 & Hst).
    destruct (IH g1 KS1 w2 g' I1 S1 C1 Hnd') as (KS' & I' & S' & C' & E'); auto.
    - intros K. apply H0. now right.
    - intros j Hj. destruct (Hl j (or_intror Hj)). apply Hst; auto. intros ->. contradiction.
    - exists KS'. split; [exact I'|]. split; [exact S'|]. split; [exact C'|congruence].
  Qed.
  Lemma sc_rounds fuel : forall g KS prev ws g', Iv ps nobody g KS -> Sh g -> Sc nobody g KS -> rounds fuel g prev = (ws, Ok g') -> exists KS', Iv ps nobody g' KS' /\ Sh g' /\ KS' 0%nat = KS 0%nat.
  Proof.
    induction fuel as [|fuel IH]; intros g KS prev ws g' I S C H; cbn [rounds] in H; [minv|]. apply bind_ok in H as (w1 & g1 & w2 & H1 & H & _).
    assert (Q : Iv ps nobody g1 KS /\ Sh g1 /\ Sc nobody g1 KS).
    { clear - NDC I S C H1. unfold resolve_placeholders in H1. revert H1. generalize (g_phs g). intros l. revert g w1 I S C. induction l as [|h l IH]; intros g w1 I S C H; cbn in H; [apply ret_ok in H as [<- _]; auto|].
      apply bind_ok in H as (w2 & g2 & w3 & H2 & H & _). eapply IH; [| | |exact H]; [eapply iv_resolve_ph; eassumption|eapply sh_resolve_ph; [apply I|exact S|exact H2]|]. exact (sc_resolve_ph ps NDC _ _ _ _ _ I S C H2). }
    destruct Q as (I1 & S1 & C1).
    destruct (topological_sorted g1 (find_processable g1)) as [|x l] eqn:Et; [apply ret_ok in H as [<- _]; eauto|]. rewrite <- Et in *.
    apply bind_ok in H as (w3 & u & w4 & _ & H & _). apply bind_ok in H as (w5 & g2 & w6 & H2 & H & _).
    destruct (topological_sorted_spec g1 (find_processable g1) (proj1 I1)) as (Hnd & _ & Hin).
    destruct (sc_fold _ g1 KS w5 g2 I1 S1 C1 Hnd) with (3 := H2) as (KS2 & I2 & S2 & C2 & E2).
    - intros K. apply Hin in K as [_ K]. unfold unprocessed in K. rewrite (v_root _ _ _ _ (proj1 (proj2 I1))) in K. discriminate.
    - intros i K. apply Hin in K as [K1 K2]. split.
      + unfold unprocessed in K2. destruct (get_node g1 i) as [n|] eqn:En; [|discriminate]. exists n. split; [exact En|]. now destruct (n_done n).
      + unfold find_processable in K1. apply filter_In in K1 as [_ K1]. intros a Ha. unfold has_incoming in K1. apply negb_true_iff in K1.
        assert (K : existsb (fun e => etype_eqb (e_typ e) PLACEHOLDER) (in_edges g1 i) = true); [|congruence]. apply existsb_exists. exists (a, i, PLACEHOLDER). split; [|reflexivity].
        unfold in_edges. apply filter_In. split; [exact Ha|]. cbn. apply Nat.eqb_refl.
    - destruct (IH _ _ _ _ _ I2 S2 C2 H) as (KS' & I' & S' & E'). exists KS'. split; [exact I'|]. split; [exact S'|congruence].
  Qed.
  Lemma sc_initialization ws g KS : initialization ps0 = (ws, Ok g) -> NoDer g -> Sc nobody g KS.
  Proof.
    intros H ND. constructor; [|intros b i n path He; destruct (ND _ _ He)].
    assert (T : forall c p q, Kid g p c -> Kid g q c -> p = q); [|intros p q c P Q; now rewrite (T _ _ _ P Q)]. clear ND KS.
    apply bind_ok in H as (w1 & g0 & w2 & H1 & H & _). apply tr_construct in H1. assert (T := tr_one _ H1). clear H1. revert H. generalize (g_phs g0). intros l. revert g0 w2 T. induction l as [|h l IH]; intros g0 w2 T H; cbn in H; [apply ret_ok in H as [<- _]; exact T|].
    apply bind_ok in H as (w3 & g1 & w4 & H1 & H & _). eapply IH; [|exact H]. unfold link_placeholder in H1. apply bind_ok in H1 as (w5 & [p|] & w6 & _ & H1 & _); [|apply ret_ok in H1 as [<- _]; exact T].
    apply add_edge_m_eq in H1 as (_ & -> & _). intros c x y P Q. unfold Kid in P, Q. cbn [g_edges] in P, Q. rewrite ckids_cons in P, Q. exact (T _ _ _ P Q).
  Qed.
  Lemma sc_final fuel w0 g0 ws g : initialization ps0 = (w0, Ok g0) -> rounds fuel g0 [] = (ws, Ok g) -> exists KS, Iv ps nobody g KS /\ Sh g /\ KS 0%nat = map PaPer ps0.
  Proof.
    intros H0 H. assert (S := tr_initialization _ _ _ H0). destruct (st_initialization ps _ _ H0) as (KS & (Wf & V & E & ND) & E0). cbn [sy_ps strict] in E0.
    destruct (sc_rounds fuel g0 KS [] ws g) as (KS' & I & S' & E'); [split; auto|exact S|exact (sc_initialization _ _ _ H0 ND)|exact H|]. exists KS'. split; [exact I|]. split; [exact S'|congruence].
  Qed.

  (** what holds with regard to the siblings holds without *)
  Lemma fam_loose W g KS sc e fam : Fam ps W g KS sc e fam -> Fam (loose ps0) W g KS sc e fam.
  Proof.
    intros [x y n H1 H2 H3|x y n H1 H2 H3|e0 e' y n H1 H2 H3 H4|x y n v H1 H2 H3 H4 H5 H6|x y n js vs tv H1 H2 H3 H4 H5 H6 H7].
    - eapply F_undone; eassumption.
    - eapply F_work; eassumption.
    - eapply F_evc; eassumption.
    - eapply F_single; eauto. exact (elab_weak _ _ _ _ _ _ H6).
    - eapply F_many; eauto. exact (elab_weak _ _ _ _ _ _ H6).
  Qed.
  Lemma iv_loose W g KS : Iv ps W g KS -> Iv (loose ps0) W g KS.
  Proof.
    intros (Wf & V & E). split; [exact Wf|]. split; [|exact E]. constructor; [apply (v_root _ _ _ _ V)| | |apply (v_nd _ _ _ _ V)|exact (v_prov _ _ _ _ V)].
    - intros i n Hi Hn. destruct (v_node _ _ _ _ V _ _ Hi Hn) as (H1 & H2 & H3 & H4). split; [exact H1|]. split; [exact H2|]. split; [exact H3|]. intros Hd. destruct (H4 Hd) as [K|[K (sc & vs & tv & v & L1 & L2)]]; [left; exact K|right].
      split; [exact K|]. exists sc, vs, tv, v. split; [exact (elab_weak _ _ _ _ _ _ L1)|exact L2].
    - intros i Hi. destruct (v_kids _ _ _ _ V _ Hi) as (fams & HP & HF). exists fams. split; [exact HP|]. assert (G : forall sc es, Forall2 (Fam ps W g KS sc) es fams -> Forall2 (Fam (loose ps0) W g KS sc) es fams); [|exact (G _ _ HF)]. clear. intros sc es HF. induction HF; constructor; auto. now apply fam_loose.
  Qed.
End Strict.
