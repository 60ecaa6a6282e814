(** * LookupOk: the names of the bases of peripherals are found.  (C52) *)
From Verif Require Import Base PyStr PyInt Types DimModel EnumModel ElemModel ResolveModel ProcessModel GraphFacts ReplicateFacts ResolveWF TopoFacts ResolveInv SpecSearch SearchFacts
  SpecDim SpecElem SpecDeclared SpecExpand SpecAccept PropsDim DescribeFacts ExpandInv ExpandBuild ExpandStep ExpandNode ExpandRounds ExpandShare TermFacts ExpandLeft BuildOk.
From Coq Require Import Relations Wellfounded.Transitive_Closure.

(** ** Searching among siblings *)
Definition Match (g : graph) (excl : nat) (lv : level) (part : string) (i : nat) : Prop := exists n, get_node g i = Some n /\ i <> excl /\ n_name n = Some part /\ n_level n = lv.
Lemma loop_none g sub excl lv part nodes : forall acc, (forall i, In i nodes -> ~ Match g excl lv part i) -> (length acc <= 1)%nat -> search_loop g sub part true excl lv nodes acc = ret acc.
Proof.
  induction nodes as [|i nodes IH]; intros acc H Ha; cbn [search_loop]; [reflexivity|]. fold (search_loop g sub part true excl lv).
  assert (IH' := IH acc (fun j Hj => H j (or_intror Hj)) Ha). destruct (get_node g i) as [n|] eqn:En; [|exact IH']. destruct (Nat.eqb_spec i excl) as [->|Hne]; [exact IH'|].
  destruct (option_eqb String.eqb (n_name n) (Some part)) eqn:Eo; cbn [negb]; [|exact IH']. destruct (level_eqb (n_level n) lv) eqn:El.
  - exfalso. apply (H i (or_introl eq_refl)). exists n. split; [exact En|]. split; [exact Hne|]. split; [|now apply level_eqb_eq]. destruct (n_name n) as [x|]; [|discriminate]. cbn in Eo. apply String.eqb_eq in Eo. congruence.
  - rewrite bind_ret_l. rewrite app_nil_r. destruct acc as [|a [|b acc]]; [exact IH'|exact IH'|cbn in Ha; lia].
Qed.
Lemma level_eqb_refl a : level_eqb a a = true. Proof. destruct a; reflexivity. Qed.
Lemma loop_one g sub excl lv part b nodes : NoDup nodes -> In b nodes -> Match g excl lv part b -> (forall i, In i nodes -> Match g excl lv part i -> i = b) -> search_loop g sub part true excl lv nodes [] = ret [b].
Proof.
  induction nodes as [|i nodes IH]; intros Hnd Hin Hb H; [destruct Hin|]. inversion Hnd as [|? ? Hn Hnd']; subst. destruct (Nat.eq_dec i b) as [->|Hne].
  - destruct Hb as (n & En & Hex & Hnm & Hl). cbn [search_loop]. fold (search_loop g sub part true excl lv). rewrite En, (proj2 (Nat.eqb_neq b excl) Hex), Hnm. cbn [option_eqb]. rewrite String.eqb_refl. cbn [negb]. rewrite Hl, level_eqb_refl, bind_ret_l. cbn [app].
    apply loop_none; [|cbn; lia]. intros j Hj K. apply Hn. rewrite <- (H j (or_intror Hj) K). exact Hj.
  - destruct Hin as [Hin|Hin]; [congruence|]. assert (IH' := IH Hnd' Hin Hb (fun j Hj => H j (or_intror Hj))). assert (HN : ~ Match g excl lv part i) by (intros K; apply Hne; apply H; [now left|exact K]).
    cbn [search_loop]. fold (search_loop g sub part true excl lv). destruct (get_node g i) as [n|] eqn:En; [|exact IH']. destruct (Nat.eqb_spec i excl) as [->|Hne']; [exact IH'|].
    destruct (option_eqb String.eqb (n_name n) (Some part)) eqn:Eo; cbn [negb]; [|exact IH']. destruct (level_eqb (n_level n) lv) eqn:El.
    + exfalso. apply HN. exists n. split; [exact En|]. split; [exact Hne'|]. split; [|now apply level_eqb_eq]. destruct (n_name n) as [x|]; [|discriminate]. cbn in Eo. apply String.eqb_eq in Eo. congruence.
    + rewrite bind_ret_l. cbn [app]. exact IH'.
Qed.

(** ** Bases of peripherals *)
Section Bases.
  Context (ps : list svd_periph).
  Lemma base_in p q : PlainBase ps p q -> In q ps.
  Proof. intros (path & l1 & l2 & _ & _ & E & _). rewrite E. apply in_elt. Qed.
  Lemma base_name p q path r : PlainBase ps p q -> sp_derived p = Some path -> In r ps -> sp_name r = path -> r = q.
  Proof.
    intros (path' & l1 & l2 & Hd & _ & E & _ & Hu) Hp Hr Hn. rewrite Hp in Hd. injection Hd as <-. rewrite E in Hr. apply in_app_iff in Hr as [Hr|[Hr|Hr]]; [|now symmetry|]; exfalso; apply (Hu r); auto; apply in_app_iff; auto.
  Qed.
  Lemma base_of p q path : PlainBase ps p q -> sp_derived p = Some path -> sp_name q = path /\ split_on "." path = [path].
  Proof. intros (path' & l1 & l2 & Hd & Hs & E & Hn & Hu) Hp. rewrite Hp in Hd. injection Hd as <-. auto. Qed.
  Lemma base_fun p q q' : PlainBase ps p q -> PlainBase ps p q' -> q' = q.
  Proof. intros H H'. assert (K := H'). destruct K as (path & l1 & l2 & Hd & _). apply (base_name p q path); auto; [now apply base_in in H'|]. apply (base_of p q' path H' Hd). Qed.
  Lemma grounded_acc p : Grounded ps p -> Acc (fun q p => PlainBase ps p q) p.
  Proof.
    induction 1 as [p Hp|p q Hb _ IH]; constructor; intros r Hr; [destruct Hr as (path & l1 & l2 & Hd & _); congruence|]. now rewrite (base_fun _ _ _ Hb Hr).
  Qed.
  Lemma acc_irrefl {A} (R : A -> A -> Prop) x : Acc R x -> ~ clos_trans A R x x.
  Proof.
    intros H. apply (Acc_clos_trans A R) in H. induction H as [x _ IH]. intros K. exact (IH x K K).
  Qed.
  Lemma grounded_via p : Grounded ps p -> sp_derived p = None \/ exists q, PlainBase ps p q.
  Proof. destruct 1; eauto. Qed.
End Bases.

(** ** The first look-up *)
Section Lookup.
  Context (ps : list svd_periph) (HU : forall e, Declared ps e -> level_of e <> LPeripheral -> derived_of e = None) (HG : forall p, In p ps -> Grounded ps p).
  Lemma no_cluster_bases : forall a e, MayBeBase ps a -> level_of a = LCluster -> Inside a e -> ~ derived_cluster e.
  Proof. intros a e (_ & x & path & Hx & Hl & Hd & _) La. rewrite (HU _ Hx) in Hd; [discriminate|]. rewrite Hl, La. discriminate. Qed.
  Let NDC := no_cluster_bases.
  Lemma grounded_plain : PlainPeripheralBases ps.
  Proof.
    intros p path Hp Hd. destruct (grounded_via ps p (HG p Hp)) as [K|(q & Hq)]; [congruence|]. destruct (base_of ps p q path Hq Hd) as [Hn Hs]. split; [exact Hs|]. split; [|exists q; split; [now apply base_in in Hq|exact Hn]].
    intros K. assert (p = q) by (apply (base_name ps p q path); auto). subst q. apply (acc_irrefl _ p (grounded_acc ps p (HG p Hp))). apply t_step. exact Hq.
  Qed.
  Lemma derived_per W g KS c n : NInv (loose ps) W g KS -> get_node g c = Some n -> derived_of (n_parsed n) <> None -> c <> 0%nat /\ n_level n = LPeripheral /\ exists p, n_parsed n = PaPer p /\ In p ps.
  Proof.
    intros V Hn Hd. assert (H0 : c <> 0%nat) by (intros ->; rewrite (v_root _ _ _ _ V) in Hn; injection Hn as <-; now apply Hd). split; [exact H0|]. destruct (v_node _ _ _ _ V _ _ H0 Hn) as (L1 & L2 & _).
    assert (Hl : level_of (n_parsed n) = LPeripheral). { destruct (level_of (n_parsed n)) eqn:El; try reflexivity; exfalso; apply Hd; apply (HU _ L2); rewrite El; discriminate. }
    split; [congruence|]. destruct (n_parsed n) as [|p|[?|? ?]|?|?]; try discriminate. exists p. split; [reflexivity|exact L2].
  Qed.
  (** the elements below the root, one for each peripheral *)
  Definition Per (g : graph) (p : svd_periph) (c : nat) : Prop := exists n, get_node g c = Some n /\ n_done n = false /\ n_parsed n = PaPer p.
  Lemma root_kids g KS : Start ps g KS -> exists cs, Permutation (ckids (g_edges g) 0) cs /\ Forall2 (Per g) ps cs.
  Proof.
    intros (I & E0 & Fi & _). assert (V := proj1 (proj2 I)). destruct (v_kids _ _ _ _ V 0%nat) as (fams & P & F); [apply is_elem_node; eexists; apply (v_root _ _ _ _ V)|].
    exists (concat fams). split; [exact P|]. assert (H0 : forall c, In c (concat fams) -> c <> 0%nat).
    { intros c Hc. apply (Permutation_in c (Permutation_sym P)) in Hc. exact (proj1 (child_level (loose ps) _ g KS _ _ c V (v_root _ _ _ _ V) Hc)). }
    rewrite E0 in F. clear - F H0 Fi. revert fams F H0. generalize (map PaPer ps) at 1. intros sc. generalize ps at 2 3. intros l. induction l as [|p l IH]; intros fams F H0; cbn [map] in F; inversion F as [|? fam ? fams' HF1 HF2]; subst; cbn; [constructor|].
    assert (X : exists c, fam = [c] /\ Per g p c).
    { remember (PaPer p) as e eqn:Ee. destruct HF1 as [e c n Hn Hd Hp|e c n HW Hn Hp|e0 e' c n Hn Hd Hp Hf|e c n v Hn Hd Ht Hp Hv He|e c n js vs tv Hn Hd Ht Hp Hv He Hj].
      - exists c. split; [reflexivity|]. exists n. subst. auto.
      - destruct HW.
      - discriminate.
      - exfalso. apply (H0 c); [cbn; now left|]. exact (Fi _ _ Hn Hd).
      - exfalso. apply (H0 c); [cbn; now left|]. exact (Fi _ _ Hn Hd). }
    destruct X as (c & -> & Hc). cbn. constructor; [exact Hc|]. apply IH; [exact HF2|]. intros x Hx. apply H0. cbn. now right.
  Qed.
  Lemma siblings_spec g KS c n : Start ps g KS -> get_node g c = Some n -> n_level n = LPeripheral -> NoDup (get_element_siblings g c) /\ forall x, In x (get_element_siblings g c) <-> Kid g 0 x /\ x <> c.
  Proof.
    intros HS Hc Hl. assert (Hk := top_child _ _ _ _ _ HS Hc Hl). destruct HS as (I & _ & _ & _ & _ & _). destruct I as (Wf & V & E). unfold get_element_siblings.
    assert (HP : forall p, In p (get_element_parents g c) -> p = 0%nat) by (intros p Hp; apply (parents_ckids _ _ _ E) in Hp; exact (per_parent _ _ _ _ _ _ _ V E Hp Hc Hl)).
    assert (H0 : In 0%nat (get_element_parents g c)) by (apply (parents_ckids _ _ _ E); exact Hk). destruct (get_element_parents g c) as [|p l]; [destruct H0|]. rewrite (HP p (or_introl eq_refl)). clear p HP H0 l. split.
    - apply NoDup_filter. apply successors_NoDup.
    - intros x. rewrite filter_In, successors_In, andb_true_iff, negb_true_iff, Nat.eqb_neq. split.
      + intros ((t & Ht) & He & Hne). split; [|exact Hne]. unfold Kid. apply ckids_In. exists t. split; [exact Ht|]. destruct t; try reflexivity; exfalso.
        * destruct (w_ph _ E _ _ Ht) as [(path & m & Hs & _)|(_ & path & d & Hs & _)]; [assert (X := v_root _ _ _ _ V)|apply is_elem_node in He as (m & X)]; apply get_node_slot in X; congruence.
        * destruct (w_der _ E _ _ Ht) as (na & nb & Ha & Hb & Hlv & _). rewrite (v_root _ _ _ _ V) in Ha. injection Ha as <-. cbn in Hlv. assert (Hx0 : x <> 0%nat) by (intros ->; apply (wf_acyclic _ Wf 0%nat 0%nat); [exists DERIVE; exact Ht|apply rt_refl]).
          destruct (v_node _ _ _ _ V _ _ Hx0 Hb) as (L1 & L2 & _). rewrite <- Hlv in L1. exact (level_device ps _ L2 (eq_sym L1)).
      + intros [K Hne]. unfold Kid in K. apply ckids_In in K as (t & Ht & Hch). split; [exists t; exact Ht|]. split; [apply (w_child _ E _ _ _ Ht Hch)|exact Hne].
  Qed.
  Lemma name_undone g KS c n p : Iv (loose ps) nobody g KS -> get_node g c = Some n -> n_done n = false -> n_parsed n = PaPer p -> n_name n = Some (sp_name p) /\ n_level n = LPeripheral /\ In p ps /\ c <> 0%nat.
  Proof.
    intros I Hn Hd Hp. assert (V := proj1 (proj2 I)). assert (H0 : c <> 0%nat) by (intros ->; rewrite (v_root _ _ _ _ V) in Hn; injection Hn as <-; discriminate).
    destruct (v_node _ _ _ _ V _ _ H0 Hn) as (L1 & L2 & L3 & _). destruct (L3 Hd) as (_ & _ & Hnm & _). rewrite Hp in *. auto.
  Qed.
  Lemma found_base g KS c n p q path : Start ps g KS -> get_node g c = Some n -> n_done n = false -> n_parsed n = PaPer p -> sp_derived p = Some path -> PlainBase ps p q ->
    exists b, Per g q b /\ path_resolving g c (n_level n) path = ret (Some b).
  Proof.
    intros HS Hc Hdn Hp Hd Hb. assert (I := proj1 HS). destruct (name_undone g KS c n p I Hc Hdn Hp) as (_ & Hl & Hip & Hc0). destruct (root_kids g KS HS) as (cs & P & F). destruct (base_of ps p q path Hb Hd) as [Hn Hs].
    assert (Hb' := Hb). destruct Hb' as (path' & l1 & l2 & Hd' & _ & Eps & _ & Hu). rewrite Hd in Hd'. injection Hd' as <-. rewrite Eps in F. apply Forall2_app_inv_l in F as (c1 & c2 & F1 & F2 & ->). inversion F2 as [|? b ? c3 Hq F3]; subst.
    exists b. split; [exact Hq|]. destruct (siblings_spec g KS c n HS Hc Hl) as [Hnd Hsib].
    assert (Hne : b <> c). { intros ->. destruct Hq as (m & Hm & _ & Hm'). rewrite Hc in Hm. injection Hm as <-. rewrite Hp in Hm'. injection Hm' as ->. destruct (grounded_plain q _ Hip Hd) as (_ & K & _). now apply K. }
    assert (Hkid : forall x, Kid g 0 x <-> In x (c1 ++ b :: c3)) by (intros x; unfold Kid; split; intros K; [eapply Permutation_in; eassumption|eapply Permutation_in; [apply Permutation_sym|]; eassumption]).
    assert (E1 : search_nodes g (split_on "." (sp_name q)) c (n_level n) (get_element_siblings g c) = ret [b]).
    { rewrite Hs. cbn [search_nodes]. apply loop_one; [exact Hnd|apply Hsib; split; [apply Hkid, in_elt|exact Hne]| |].
      - destruct Hq as (m & Hm & Hdm & Hpm). destruct (name_undone g KS b m q I Hm Hdm Hpm) as (N1 & N2 & _). exists m. rewrite Hl. auto.
      - intros x Hx (m & Hm & _ & Hnm & _). apply Hsib in Hx as [Hx _]. apply Hkid in Hx. apply in_app_iff in Hx as [Hx|[Hx|Hx]]; [|now symmetry|]; exfalso.
        + assert (K : exists r, In r l1 /\ Per g r x). { clear - F1 Hx. induction F1 as [|r y l c1 H F1 IH]; [destruct Hx|]. destruct Hx as [->|Hx]; [exists r; split; [now left|exact H]|]. destruct (IH Hx) as (r' & K1 & K2). exists r'. split; [now right|exact K2]. }
          destruct K as (r & Hr & m' & Hm' & Hdm & Hpm). rewrite Hm in Hm'. injection Hm' as <-. destruct (name_undone g KS x m r I Hm Hdm Hpm) as (N1 & _). apply (Hu r); [apply in_app_iff; now left|congruence].
        + assert (K : exists r, In r l2 /\ Per g r x). { clear - F3 Hx. induction F3 as [|r y l c3 H F3 IH]; [destruct Hx|]. destruct Hx as [->|Hx]; [exists r; split; [now left|exact H]|]. destruct (IH Hx) as (r' & K1 & K2). exists r'. split; [now right|exact K2]. }
          destruct K as (r & Hr & m' & Hm' & Hdm & Hpm). rewrite Hm in Hm'. injection Hm' as <-. destruct (name_undone g KS x m r I Hm Hdm Hpm) as (N1 & _). apply (Hu r); [apply in_app_iff; now right|congruence]. }
    unfold path_resolving. rewrite E1, bind_ret_l. reflexivity.
  Qed.
  (** derivation edges follow the bases *)
  Lemma der_base g KS a c : Iv (loose ps) nobody g KS -> First g -> In (a, c, DERIVE) (g_edges g) -> exists p q, Per g p c /\ Per g q a /\ PlainBase ps p q.
  Proof.
    intros I Fi H. destruct I as (Wf & V & E). assert (I : Iv (loose ps) nobody g KS) by (split; auto). destruct (w_der _ E _ _ H) as (na & nc & Ha & Hc & Hl & Hor).
    assert (Hdc : n_done nc = false). { destruct (n_done nc) eqn:Ed; [|reflexivity]. assert (c = 0%nat) by exact (Fi _ _ Hc Ed). subst c. exfalso. rewrite (v_root _ _ _ _ V) in Hc. injection Hc as <-. destruct Hor as [[_ K]|(path & K & _)]; discriminate. }
    destruct Hor as [[K _]|(path & Hd & Hn)]; [congruence|]. destruct (derived_per _ _ _ _ _ V Hc) as (Hc0 & Lc & p & Hp & Hip); [congruence|]. rewrite Hp in Hd. cbn in Hd.
    assert (Ha0 : a <> 0%nat) by (intros ->; rewrite (v_root _ _ _ _ V) in Ha; injection Ha as <-; rewrite Lc in Hl; discriminate).
    assert (Hda : n_done na = false) by (destruct (n_done na) eqn:Ed; [destruct (Ha0 (Fi _ _ Ha Ed))|reflexivity]). destruct (v_node _ _ _ _ V _ _ Ha0 Ha) as (L1 & L2 & L3 & _).
    rewrite Hl, Lc in L1. destruct (n_parsed na) as [|r|[?|? ?]|?|?] eqn:Ep; try discriminate. destruct (name_undone g KS a na r I Ha Hda Ep) as (N1 & _ & Hir & _).
    exists p, r. split; [exists nc; auto|]. split; [exists na; auto|]. destruct (grounded_via ps p (HG p Hip)) as [K|(q & Hq)]; [congruence|]. destruct (base_of ps p q path Hq Hd) as [_ Hs].
    assert (r = q); [|subst; exact Hq]. apply (base_name ps p q path); auto. rewrite N1 in Hn. injection Hn as ->. unfold path_end. rewrite Hs. reflexivity.
  Qed.
  Definition PerStep (g : graph) (a c : nat) : Prop := In (a, c, DERIVE) (g_edges g).
  Lemma reach_per g KS a x : Iv (loose ps) nobody g KS -> First g -> Reach g a x -> forall na nx, get_node g a = Some na -> n_level na = LPeripheral -> get_node g x = Some nx -> n_level nx = LPeripheral -> clos_refl_trans nat (PerStep g) a x.
  Proof.
    intros I Fi R na nx Ha La Hx Lx. destruct I as (Wf & V & E). assert (I : Iv (loose ps) nobody g KS) by (split; auto).
    assert (Q : clos_refl_trans nat (PerStep g) a x \/ exists n, get_node g x = Some n /\ n_level n <> LPeripheral).
    { apply clos_rt_rtn1 in R. clear Hx Lx. assert (Q : x <> 0%nat /\ ((clos_refl_trans nat (PerStep g) a x /\ exists n, get_node g x = Some n /\ n_level n = LPeripheral) \/ exists n, get_node g x = Some n /\ n_level n <> LPeripheral)); [|destruct Q as [_ [[Q _]|Q]]; auto].
      induction R as [|y z (t & Ht) _ IH]; [split; [intros ->; rewrite (v_root _ _ _ _ V) in Ha; injection Ha as <-; discriminate|]; left; split; [apply rt_refl|eauto]|]. destruct IH as [Hy0 Hy].
      assert (Hyn : exists n, get_node g y = Some n) by (destruct Hy as [[_ (n & Hn & _)]|(n & Hn & _)]; eauto). destruct Hyn as (ny & Hny). assert (Hly : n_level ny <> LPeripheral \/ (n_level ny = LPeripheral /\ clos_refl_trans nat (PerStep g) a y)).
      { destruct Hy as [[K (n & Hn & Hl)]|(n & Hn & Hl)]; rewrite Hny in Hn; injection Hn as <-; auto. }
      destruct (v_node _ _ _ _ V _ _ Hy0 Hny) as (Ly & Dy & _). assert (Dv := level_device ps _ Dy).
      destruct (is_child t) eqn:Et.
      - assert (Hk : Kid g y z) by (unfold Kid; apply ckids_In; eauto). destruct (child_level (loose ps) nobody g KS y ny z V Hny Hk) as (Hz0 & nz & Hz & _ & Hlt). split; [exact Hz0|]. right. exists nz. split; [exact Hz|]. intros K. rewrite K in Hlt. destruct Hlt as [Hlt|[_ Hlt]]; [|discriminate].
        rewrite Ly in Hlt. destruct (level_of (n_parsed ny)); cbn in Hlt; try lia. now apply Dv.
      - destruct t; try discriminate.
        + exfalso. destruct (w_ph _ E _ _ Ht) as [(path & n & Hs & _)|(Hey & path & c & Hs & Hhc)]; [apply get_node_slot in Hny; congruence|].
          destruct (w_ph _ E _ _ Hhc) as [(path' & n & Hs' & Hn & _ & Hd)|(K & _)]; [|apply is_elem_node in K as (m & K); apply get_node_slot in K; congruence]. assert (Hk := w_link _ E _ _ _ Hey Ht Hhc).
          destruct (derived_per _ _ _ _ _ V Hn) as (_ & Lc & _); [congruence|]. exact (Hy0 (per_parent _ _ _ _ _ _ _ V E Hk Hn Lc)).
        + destruct (der_base g KS y z I Fi Ht) as (p & q & (nz & Hz & Hdz & Hpz) & (ny' & Hny' & _ & Hpy) & _). rewrite Hny in Hny'. injection Hny' as <-. destruct (name_undone g KS z nz p I Hz Hdz Hpz) as (_ & Lz & _ & Hz0). split; [exact Hz0|].
          left. split; [|eauto]. destruct Hly as [K|[_ K]]; [rewrite Ly, Hpy in K; now destruct K|]. eapply rt_trans; [exact K|]. apply rt_step. exact Ht. }
    destruct Q as [Q|(n & Hn & K)]; [exact Q|]. rewrite Hx in Hn. injection Hn as <-. contradiction.
  Qed.
  Lemma per_inj g c p q : Per g p c -> Per g q c -> p = q.
  Proof. intros (n & H1 & _ & H2) (m & H3 & _ & H4). rewrite H1 in H3. injection H3 as <-. rewrite H2 in H4. now injection H4. Qed.
  Lemma no_back g KS b c p q : Iv (loose ps) nobody g KS -> First g -> Per g p c -> Per g q b -> PlainBase ps p q -> ~ Reach g c b.
  Proof.
    intros I Fi Hc Hb HB R. assert (Hc' := Hc). assert (Hb' := Hb). destruct Hc' as (nc & Hnc & Hdc & Hpc), Hb' as (nb & Hnb & Hdb & Hpb).
    destruct (name_undone g KS c nc p I Hnc Hdc Hpc) as (_ & Lc & Hip & _). destruct (name_undone g KS b nb q I Hnb Hdb Hpb) as (_ & Lb & _).
    assert (K := reach_per g KS c b I Fi R nc nb Hnc Lc Hnb Lb). apply (acc_irrefl _ p (grounded_acc ps p (HG p Hip))).
    assert (X : clos_refl_trans svd_periph (fun q p => PlainBase ps p q) p q).
    { clear - K Hc Hb I Fi HU HG. apply clos_rt_rt1n in K. revert p Hc. induction K as [x|x y z Hxy _ IH]; intros p Hc; [rewrite (per_inj _ _ _ _ Hc Hb); apply rt_refl|].
      destruct (der_base g KS x y I Fi Hxy) as (p' & q' & Hy & Hx & Hb'). rewrite (per_inj _ _ _ _ Hc Hx). eapply rt_trans; [apply rt_step; exact Hb'|]. now apply IH. }
    apply clos_rt_t with q; [exact X|]. apply t_step. exact HB.
  Qed.
End Lookup.

(** ** Resolving the placeholders *)
Lemma filter_comm {A} (P Q : A -> bool) l : filter P (filter Q l) = filter Q (filter P l).
Proof. induction l as [|x l IH]; [reflexivity|]. cbn. destruct (P x) eqn:EP, (Q x) eqn:EQ; cbn; rewrite ?EP, ?EQ, IH; reflexivity. Qed.
Section Resolve.
  Context (ps : list svd_periph) (HU : forall e, Declared ps e -> level_of e <> LPeripheral -> derived_of e = None) (HG : forall p, In p ps -> Grounded ps p).
  Definition Has (g : graph) : Prop := forall c n, get_node g c = Some n -> derived_of (n_parsed n) <> None -> n_done n = false -> (exists h, In (h, c, PLACEHOLDER) (g_edges g)) \/ exists a, In (a, c, DERIVE) (g_edges g).
  Record Rs (g : graph) (KS : nat -> list parsed) : Prop := { rs_start : Start ps g KS; rs_dv : Dv g; rs_has : Has g;
    rs_ph : forall h path, get_slot g h = Some (NPh path) -> (exists c, PhOut g h c) /\ exists p, is_elem g p = true /\ in_edges g h = [(p, h, PLACEHOLDER)] }.
  Lemma rs_initialization w g : initialization ps = (w, Ok g) -> exists KS, Rs g KS.
  Proof.
    intros H. destruct (start_initialization ps w g H) as (KS & HS). exists KS. assert (L := proj2 (initialization_ok ps) _ _ H). split; [exact HS|exact (bi_dv _ _ (bi_initialization _ _ _ H))| |].
    - intros c n Hc Hd _. left. apply (ln_der _ _ L c n); auto.
    - intros h path Hh. destruct (ln_one _ _ L h path Hh) as (K1 & K2). split; [exact K1|]. destruct (in_dec Nat.eq_dec h []) as [[]|_]. exact K2.
  Qed.
  Lemma resolve_ok g KS h path : Rs g KS -> get_slot g h = Some (NPh path) -> exists g', resolve_placeholder g h = ret g' /\ Rs g' KS /\ g_phs g' = filter (fun p => negb (Nat.eqb p h)) (g_phs g) /\ (forall x, get_node g' x = get_node g x).
  Proof.
    intros [HS HD HH HP] Hh. destruct (HP h path Hh) as ((c & Hce & Hout) & p & Hpe & Hin). assert (I := proj1 HS). assert (Fi := proj1 (proj2 (proj2 HS))). assert (V := proj1 (proj2 I)). assert (E := proj2 (proj2 I)).
    assert (Hhc : In (h, c, PLACEHOLDER) (g_edges g)) by (assert (X : In (h, c, PLACEHOLDER) (out_edges g h)) by (rewrite Hout; now left); now apply filter_In in X).
    assert (Hph : In (p, h, PLACEHOLDER) (g_edges g)) by (assert (X : In (p, h, PLACEHOLDER) (in_edges g h)) by (rewrite Hin; now left); now apply filter_In in X).
    assert (Hkid := w_link _ E _ _ _ Hpe Hph Hhc). destruct (w_ph _ E _ _ Hhc) as [(path' & n & Hs & Hn & Hdn & Hd)|(K & _)]; [|apply is_elem_node in K as (m & K); apply get_node_slot in K; congruence].
    rewrite Hh in Hs. injection Hs as <-. destruct (derived_per ps HU nobody g KS c n V Hn) as (Hc0 & Lc & q & Hq & Hiq); [congruence|]. assert (p = 0%nat) by exact (per_parent _ _ _ _ _ _ _ V E Hkid Hn Lc). subst p.
    rewrite Hq in Hd. cbn in Hd. destruct (grounded_via ps q (HG q Hiq)) as [K|(r & Hr)]; [congruence|]. destruct (found_base ps HG g KS c n q r path HS Hn Hdn Hq Hd Hr) as (b & Hb & Eb).
    assert (HPc : Per g q c) by (exists n; auto). assert (NR : ~ Reach (remove_placeholder g h) c b).
    { intros K. apply (no_back ps HU HG g KS b c q r I Fi HPc Hb Hr). clear - K. induction K as [x y (t & K)|x|x y z _ IH1 _ IH2]; [|apply rt_refl|eapply rt_trans; eassumption]. apply rt_step. exists t. cbn in K. now apply filter_In in K. }
    set (g' := mk_graph (g_slots (remove_placeholder g h)) (g_free (remove_placeholder g h)) ((b, c, DERIVE) :: g_edges (remove_placeholder g h)) (g_phs (remove_placeholder g h))).
    assert (EQ : resolve_placeholder g h = ret g').
    { unfold resolve_placeholder, get_placeholder_parent. rewrite Hin. cbn [filter e_src e_typ fst snd]. rewrite Hpe. cbn [andb etype_eqb map e_src fst]. rewrite bind_ret_l, (v_root _ _ _ _ V). cbn [n_done root_node negb].
      unfold get_placeholder_child. rewrite Hout. cbn [filter e_dst e_typ fst snd]. rewrite Hce. cbn [andb etype_eqb map e_dst fst snd]. rewrite bind_ret_l, Hh, Hn, Eb, bind_ret_l. unfold add_edge.
      destruct (reaches (remove_placeholder g h) c b) eqn:Er; [apply reaches_spec in Er; contradiction|]. reflexivity. }
    destruct (start_resolve ps g KS h [] g' HS EQ) as [HS' HN]. exists g'. split; [exact EQ|]. split; [|split; [reflexivity|exact HN]].
    assert (Hel : forall x, is_elem g' x = is_elem g x) by (intros x; unfold is_elem; now rewrite HN). assert (Hhe : is_elem g h = false) by (unfold is_elem, get_node; rewrite Hh; reflexivity).
    assert (Hbe : is_elem g b = true) by (destruct Hb as (m & Hm & _); apply is_elem_node; eauto).
    split; [exact HS'|exact (dv_resolve_ph _ g h [] g' E HD EQ)| |].
    - intros x nx Hx Hdx Hux. rewrite HN in Hx. destruct (Nat.eq_dec x c) as [->|Hne]; [right; exists b; now left|]. assert (Hxe : is_elem g x = true) by (apply is_elem_node; eauto).
      assert (Hxh : x <> h) by (intros ->; congruence).
      destruct (HH x nx Hx Hdx Hux) as [(h' & K)|(a & K)]; [left; exists h'|right; exists a]; right; apply filter_In; (split; [exact K|]); cbn [e_src e_dst fst snd]; apply andb_true_iff; rewrite !negb_true_iff, !Nat.eqb_neq; (split; [|exact Hxh]).
      + intros ->. apply Hne. assert (X : In (h, x, PLACEHOLDER) (out_edges g h)) by (apply filter_In; split; [exact K|cbn; apply Nat.eqb_refl]). rewrite Hout in X. destruct X as [X|[]]. now injection X.
      + intros ->. destruct (w_der _ E _ _ K) as (na & nb & Ha & _). apply get_node_slot in Ha. congruence.
    - intros h' path' Hh'. assert (Hne : h' <> h /\ get_slot g h' = Some (NPh path')).
      { unfold get_slot in Hh' |- *. cbn in Hh'. rewrite nth_set_nth in Hh'. destruct (Nat.eqb_spec h h') as [<-|Hne]; [|split; [congruence|exact Hh']]. unfold get_slot in Hh. destruct (Nat.ltb_spec h (length (g_slots g))) as [Hlt|Hge]; cbn in Hh'; [discriminate|]. rewrite nth_overflow in Hh'; [discriminate|exact Hge]. }
      destruct Hne as [Hne Hh0]. destruct (HP h' path' Hh0) as ((c' & Hce' & Hout') & p' & Hpe' & Hin'). assert (Hhe' : is_elem g h' = false) by (unfold is_elem, get_node; rewrite Hh0; reflexivity). split.
      + exists c'. split; [now rewrite Hel|]. unfold out_edges, g', remove_placeholder. cbn [g_edges filter e_src fst]. replace (Nat.eqb b h') with false by (symmetry; apply Nat.eqb_neq; intros ->; congruence).
        rewrite filter_comm. fold (out_edges g h'). rewrite Hout'. cbn [filter e_src e_dst fst snd]. replace (Nat.eqb h' h) with false by (symmetry; now apply Nat.eqb_neq). replace (Nat.eqb c' h) with false by (symmetry; apply Nat.eqb_neq; intros ->; congruence). reflexivity.
      + exists p'. split; [now rewrite Hel|]. unfold in_edges, g', remove_placeholder. cbn [g_edges filter e_dst fst snd]. replace (Nat.eqb c h') with false by (symmetry; apply Nat.eqb_neq; intros ->; congruence).
        rewrite filter_comm. fold (in_edges g h'). rewrite Hin'. cbn [filter e_src e_dst fst snd]. replace (Nat.eqb h' h) with false by (symmetry; now apply Nat.eqb_neq). replace (Nat.eqb p' h) with false by (symmetry; apply Nat.eqb_neq; intros ->; congruence). reflexivity.
  Qed.
  Lemma filter_head (h : nat) l : ~ In h l -> filter (fun p => negb (Nat.eqb p h)) (h :: l) = l.
  Proof.
    intros H. cbn. rewrite Nat.eqb_refl. cbn. induction l as [|x l IH]; [reflexivity|]. cbn. destruct (Nat.eqb_spec x h) as [->|Hne]; [destruct H; now left|]. cbn. rewrite IH; [reflexivity|]. intros K. apply H. now right.
  Qed.
  Theorem resolves_ok g KS : Rs g KS -> exists g', resolve_placeholders g = ret g' /\ Rs g' KS /\ g_phs g' = [] /\ (forall x, get_node g' x = get_node g x).
  Proof.
    unfold resolve_placeholders. remember (g_phs g) as l eqn:El. intros R. revert g El R. induction l as [|h l IH]; intros g El R; cbn [foldM]; [exists g; auto|].
    assert (W := proj1 (proj1 (rs_start _ _ R))). assert (Hh : exists path, get_slot g h = Some (NPh path)) by (apply (wf_phs _ W); rewrite <- El; now left). destruct Hh as (path & Hh).
    destruct (resolve_ok g KS h path R Hh) as (g1 & E1 & R1 & P1 & N1). rewrite E1, bind_ret_l. assert (Hnd := wf_phs_nd _ W). rewrite <- El in Hnd. inversion Hnd as [|? ? Hn Hnd']; subst.
    rewrite <- El, (filter_head h l Hn) in P1. destruct (IH g1 (eq_sym P1) R1) as (g' & E2 & R2 & P2 & N2). exists g'. split; [exact E2|]. split; [exact R2|]. split; [exact P2|]. intros x. now rewrite N2.
  Qed.
End Resolve.
