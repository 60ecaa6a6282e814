(** * AcceptFacts: descriptions whose elements are acceptable, with derivedFrom at most on peripherals, are resolved.  (C49, C52) *)
From Verif Require Import Base PyStr PyInt Types DimModel EnumModel ElemModel ResolveModel ProcessModel GraphFacts ReplicateFacts ResolveWF TopoFacts ResolveInv
  SpecDim SpecElem SpecDeclared SpecExpand SpecAccept PropsDim DescribeFacts ExpandInv ExpandBuild ExpandStep ExpandNode ExpandRounds ExpandShare TermFacts FuelFacts ExpandLeft ExpandFinal BuildOk LookupOk.
From Coq Require Import Relations.

(** every child edge of a processed node is marked *)
Definition DE (g : graph) : Prop := forall a b t n, In (a, b, t) (g_edges g) -> is_child t = true -> get_node g a = Some n -> n_done n = true -> t = CHILD_RESOLVED.
Definition Nice (g : graph) : Prop := WF g /\ g_phs g = [] /\ DE g.
Lemma phs_none g : WF g -> (forall h path, get_slot g h <> Some (NPh path)) -> g_phs g = [].
Proof. intros W H. destruct (g_phs g) as [|h l] eqn:E; [reflexivity|]. assert (K : In h (g_phs g)) by (rewrite E; now left). apply (wf_phs _ W) in K as (path & K). destruct (H _ _ K). Qed.
Lemma none_phs g h path : WF g -> g_phs g = [] -> get_slot g h <> Some (NPh path).
Proof. intros W H K. assert (X : In h (g_phs g)) by (apply (wf_phs _ W); eauto). rewrite H in X. destruct X. Qed.

(** ** Marking the children *)
Lemma update_first_In i c es a b t : In (a, b, t) (update_first i c CHILD_RESOLVED es) -> In (a, b, t) es \/ (a = i /\ b = c /\ t = CHILD_RESOLVED).
Proof.
  induction es as [|e es IH]; cbn; [tauto|]. destruct (Nat.eqb (e_src e) i && Nat.eqb (e_dst e) c) eqn:E; cbn; [intros [H|H]; [injection H as <- <- <-; now right|now left; right]|].
  intros [H|H]; [now left; left|]. destruct (IH H) as [K|K]; [now left; right|now right].
Qed.
Lemma update_first_this i c es : NoDup (ckids es i) -> (forall t, In (i, c, t) es -> is_child t = true) -> forall t, In (i, c, t) (update_first i c CHILD_RESOLVED es) -> t = CHILD_RESOLVED.
Proof.
  induction es as [|e es IH]; cbn [update_first]; [intros _ _ t []|]. intros Hnd Hc t H. assert (Hc' : forall t, In (i, c, t) es -> is_child t = true) by (intros; eapply Hc; right; eassumption).
  destruct (Nat.eqb (e_src e) i && Nat.eqb (e_dst e) c) eqn:E.
  - destruct H as [H|H]; [injection H as ->; reflexivity|]. exfalso. apply andb_prop in E as [E1 E2]. apply Nat.eqb_eq in E1, E2. destruct e as [[a b] u]. unfold e_src, e_dst, e_typ in *. cbn in E1, E2. subst a b.
    assert (Hu : is_child u = true) by (eapply Hc; left; reflexivity). rewrite ckids_cons, Hu, Nat.eqb_refl in Hnd. cbn in Hnd. inversion Hnd as [|? ? Hn _]; subst. apply Hn. apply ckids_In. exists t. split; [exact H|]. now apply Hc' in H.
  - destruct H as [H|H]; [subst e; unfold e_src, e_dst in E; cbn in E; rewrite !Nat.eqb_refl in E; discriminate|]. apply IH; auto. destruct e as [[a b] u]. rewrite ckids_cons in Hnd. destruct (is_child u && Nat.eqb a i); [inversion Hnd; assumption|exact Hnd].
Qed.
Lemma set_resolved_In i cs : forall es a b t, In (a, b, t) (set_resolved es i cs) -> In (a, b, t) es \/ (a = i /\ t = CHILD_RESOLVED).
Proof.
  unfold set_resolved. induction cs as [|c cs IH]; intros es a b t H; cbn in H; [now left|]. apply IH in H as [H|H]; [|now right]. apply update_first_In in H as [H|(H1 & _ & H2)]; [now left|now right].
Qed.
Lemma set_resolved_all i cs : forall es, NoDup (ckids es i) -> (forall c t, In c cs -> In (i, c, t) es -> is_child t = true) -> forall c t, In (i, c, t) (set_resolved es i cs) -> In c cs -> t = CHILD_RESOLVED.
Proof.
  unfold set_resolved. induction cs as [|c0 cs IH]; intros es Hnd Hc c t H Hin; [destruct Hin|]. cbn in H. assert (F := upd_first_facts i c0 es (fun t => Hc c0 t (or_introl eq_refl))). destruct F as (F1 & F2 & F3).
  assert (Hnd' : NoDup (ckids (update_first i c0 CHILD_RESOLVED es) i)) by now rewrite F1. assert (Hc' : forall c t, In c cs -> In (i, c, t) (update_first i c0 CHILD_RESOLVED es) -> is_child t = true).
  { intros c' t' Hc' K. apply update_first_In in K as [K|(_ & _ & ->)]; [|reflexivity]. apply Hc in K; [exact K|now right]. }
  destruct (in_dec Nat.eq_dec c cs) as [K|K]; [eapply IH; eassumption|]. destruct Hin as [->|Hin]; [|contradiction].
  apply (set_resolved_In i cs) in H as [H|[_ H]]; [|exact H]. eapply update_first_this; [exact Hnd| |exact H]. intros t'. apply Hc. now left.
Qed.

Definition LocalOk (e : parsed) (bv : option processed) : Prop := exists ws isd names displays ws' v vs, node_dimension e bv = (ws, Ok (isd, names, displays)) /\ create_elements 0 names displays e bv = (ws', Ok (v :: vs)).

(** ** Processing *)
Section Accept.
  Context (ps : list svd_periph) (HU : forall e, Declared ps e -> level_of e <> LPeripheral -> derived_of e = None) (HG : forall p, In p ps -> Grounded ps p).
  Context (HL : forall e, Declared ps e -> level_of e <> LPeripheral -> ~ is_evc e -> LocalOk e None).
  Context (HLP : forall p bv, In p ps -> (forall m, DimVia ps p m -> eff_dim (PaPer p) bv = Some m) -> LocalOk (PaPer p) bv).
  Let NDC := no_cluster_bases ps HU.

  Lemma nice_no_ph g a b : WF g -> g_phs g = [] -> EInv g -> ~ In (a, b, PLACEHOLDER) (g_edges g).
  Proof. intros W Hp E H. destruct (w_ph _ E _ _ H) as [(path & n & Hs & _)|(_ & path & c & Hs & _)]; exact (none_phs _ _ _ W Hp Hs). Qed.

  (** adding the instances *)
  Lemma instances_ok n parents (vs : list processed) : forall gn, WF (fst gn) -> (forall p, In p parents -> get_slot (fst gn) p <> None) ->
    ok (foldM (fun gn parent => foldM (fun gn v => gi <- add_element_child (fst gn) parent (mk_node (Some (processed_name v)) (n_level n) true (n_parsed n) (Some v) false) CHILD_RESOLVED ;;
             ret (fst gi, snd gn ++ [snd gi])) gn vs) (gn : graph * list nat) parents).
  Proof.
    intros gn W Hp.
    set (J := fun gn' : graph * list nat => WF (fst gn') /\ forall p, In p parents -> get_slot (fst gn') p <> None).
    assert (J1 : forall p (gn' : graph * list nat) v ws gn2, In p parents -> J gn' -> (gi <- add_element_child (fst gn') p (mk_node (Some (processed_name v)) (n_level n) true (n_parsed n) (Some v) false) CHILD_RESOLVED ;; ret (fst gi, snd gn' ++ [snd gi])) = (ws, Ok gn2) -> J gn2).
    { intros p gn' v ws gn2 Hin [W' Hp'] H. apply bind_ok in H as (w1 & gi & w2 & H1 & H & _). apply ret_ok in H as [<- _].
      destruct (add_child_spec _ _ _ _ _ _ W' (Hp' _ Hin) H1) as (W2 & K & _). split; [exact W2|]. cbn [fst]. intros q Hq. apply (keeps_exists _ _ _ K). now apply Hp'. }
    apply (ok_foldM _ J).
    - intros gn' p Hin HJ. apply (ok_foldM _ J); [|intros s x w s' _ X1 X2; exact (J1 _ _ _ _ _ Hin X1 X2)|exact HJ]. intros gn2 v _ HJ2. apply ok_bind; [apply add_child_ok; [apply HJ2|now apply HJ2]|]. intros. apply ok_ret.
    - intros gn' p ws gn2 Hin HJ H. eapply (inv_foldM _ J); [|exact HJ|exact H]. intros s x w s' _ X1 X2. exact (J1 _ _ _ _ _ Hin X1 X2).
    - split; [exact W|exact Hp].
  Qed.
  (** ... and their children *)
  Lemma edges_ok i j cs : forall g, WF g -> get_slot g j <> None -> (forall c, In c cs -> get_slot g c <> None /\ Step g i c /\ j <> c) -> (forall q, Step g q j -> Step g q i) -> ~ In j cs -> j <> i ->
    ok (foldM (fun g c => add_edge_m g j c CHILD_RESOLVED) g cs) /\ forall ws g', foldM (fun g c => add_edge_m g j c CHILD_RESOLVED) g cs = (ws, Ok g') ->
      WF g' /\ g_slots g' = g_slots g /\ (forall a b, Step g' a b <-> Step g a b \/ a = j /\ In b cs) /\ get_element_childrens g' i = get_element_childrens g i.
  Proof.
    induction cs as [|c cs IH]; intros g W Hj Hc Hq Hn Hji; cbn [foldM].
    - split; [apply ok_ret|]. intros ws g' H. apply ret_ok in H as [<- _]. split; [exact W|]. split; [reflexivity|]. split; [|reflexivity]. intros a b. cbn. tauto.
    - assert (HR : ~ Reach g c j). { intros K. destruct (Hc c (or_introl eq_refl)) as (_ & Hic & Hne). apply clos_rt_rtn1 in K. inversion K as [|y z Hy Ky]; subst; [congruence|].
        apply Hq in Hy. apply (wf_acyclic _ W _ _ Hy). apply rt_trans with c; [apply rt_step; exact Hic|]. now apply clos_rtn1_rt. }
      rewrite add_edge_ok by exact HR. set (g1 := mk_graph _ _ _ _). assert (W1 : WF g1) by (apply WF_add_edge; auto; apply Hc; now left).
      assert (HS : forall a b, Step g1 a b <-> Step g a b \/ a = j /\ b = c). { intros a b. unfold Step, g1. cbn [g_edges]. split; [intros (t & [K|K]); [injection K as <- <- _; now right|left; eauto]|intros [(t & K)|[-> ->]]; [exists t; now right|exists CHILD_RESOLVED; now left]]. }
      destruct (IH g1 W1) as [I1 I2].
      + exact Hj.
      + intros c' Hc'. destruct (Hc c' (or_intror Hc')) as (X1 & X2 & X3). split; [exact X1|]. split; [apply HS; now left|exact X3].
      + intros q K. apply HS in K as [K|[-> ->]]; [apply HS; left; now apply Hq|]. exfalso. apply Hn. now left.
      + intros K. apply Hn. now right.
      + exact Hji.
      + split; [apply ok_bind; [apply ok_ret|]; intros ws a E; injection E as _ <-; exact I1|]. intros ws g' H. apply bind_ok in H as (w1 & a & w2 & E & H & _). injection E as _ <-.
        destruct (I2 _ _ H) as (Z1 & Z2 & Z3 & Z4). split; [exact Z1|]. split; [exact Z2|]. split.
        * intros a b. rewrite Z3, HS. cbn [In]. split; [intros [[K|[-> ->]]|[-> K]]; auto|intros [K|[-> [->|K]]]; auto].
        * rewrite Z4. unfold get_element_childrens, out_edges, g1. cbn [g_edges filter e_src fst]. destruct (Nat.eqb j i) eqn:E; [apply Nat.eqb_eq in E; contradiction|reflexivity].
  Qed.
  Lemma all_edges_ok i : forall js g, WF g -> NoDup js -> ~ In i js -> (forall j, In j js -> get_slot g j <> None /\ (forall q, Step g q j -> Step g q i) /\ ~ In j (get_element_childrens g i)) ->
    ok (foldM (fun g j => foldM (fun g c => add_edge_m g j c CHILD_RESOLVED) g (get_element_childrens g i)) g js).
  Proof.
    induction js as [|j js IH]; intros g W Hnd Hi H; cbn [foldM]; [apply ok_ret|]. destruct (H j (or_introl eq_refl)) as (H1 & H2 & H3). inversion Hnd as [|? ? Hj Hnd']; subst.
    assert (Hji : j <> i) by (intros ->; apply Hi; now left).
    assert (Hcs : forall c, In c (get_element_childrens g i) -> get_slot g c <> None /\ Step g i c /\ j <> c).
    { intros c Hc. split; [|split; [|intros ->; contradiction]].
      - apply element_childrens_In in Hc as (t & K & _). apply (wf_edge _ W _ _ _ K).
      - apply element_childrens_In in Hc as (t & K & _). exists t. exact K. }
    destruct (edges_ok i j (get_element_childrens g i) g W H1 Hcs H2 H3 Hji) as [K1 K2]. apply ok_bind; [exact K1|]. intros ws g' E. destruct (K2 _ _ E) as (W' & Hs & HS & Hch). apply IH; auto.
    - intros K. apply Hi. now right.
    - intros k Hk. destruct (H k (or_intror Hk)) as (L1 & L2 & L3). split; [unfold get_slot; rewrite Hs; exact L1|]. split; [|now rewrite Hch].
      intros q Kq. apply HS in Kq as [Kq|[-> Kq]]; [apply HS; left; now apply L2|]. contradiction.
  Qed.
  Lemma prepared_de g i base g1 : WF g -> g_phs g = [] -> DE g -> Prepared g i base g1 -> (forall h path, get_slot g1 h <> Some (NPh path)) /\
    forall a b t n, a <> i -> In (a, b, t) (g_edges g1) -> is_child t = true -> get_node g1 a = Some n -> n_done n = true -> t = CHILD_RESOLVED.
  Proof.
    intros W Hp HD HP. destruct base as [b|]; cbn in HP; [|subst g1; split; [intros h path; now apply none_phs|intros a b t n _; apply HD]]. destruct HP as (m & R). assert (W0 := WF_remove_edge g b i W). split.
    - intros h path Hh. destruct (rp_only _ _ _ _ _ R h) as [K|K]; [congruence| |].
      + change (get_slot g h <> None) in K. destruct (get_slot g h) as [s|] eqn:Es; [|congruence]. assert (X := rp_keeps _ _ _ _ _ R h s Es). rewrite Hh in X. injection X as <-. exact (none_phs _ _ _ W Hp Es).
      + apply in_map_iff in K as ([i0 j] & Ej & K). cbn in Ej. subst j. destruct (rp_fresh _ _ _ _ _ R _ _ K) as [_ K2]. rewrite Hh in K2. symmetry in K2. exact (none_phs g i0 path W Hp K2).
    - intros a c t n Ha Hin Ht Hn Hd. destruct (rp_edges _ _ _ _ _ R) as (new & Ee & Hnew). rewrite Ee in Hin. apply in_app_iff in Hin as [Hin|Hin].
      + apply Hnew in Hin as [(i0 & c0 & K1 & K2 & K3)|[(i0 & _ & _ & ->)|(-> & _)]]; [|discriminate|congruence]. destruct (rp_fresh _ _ _ _ _ R _ _ K1) as [_ K4]. apply get_node_slot in Hn. rewrite Hn in K4. symmetry in K4.
        eapply (HD i0 c0 t n); [exact (remove_first_In _ _ _ _ K3)|exact Ht|apply get_node_slot; exact K4|exact Hd].
      + assert (Hs := proj1 (wf_edge _ W0 _ _ _ Hin)). change (get_slot g a <> None) in Hs. destruct (get_slot g a) as [s|] eqn:Es; [|congruence]. assert (X := rp_keeps _ _ _ _ _ R a s Es). apply get_node_slot in Hn. rewrite Hn in X. injection X as <-.
        eapply (HD a c t n); [exact (remove_first_In _ _ _ _ Hin)|exact Ht|apply get_node_slot; exact Es|exact Hd].
  Qed.
  Lemma update_ok g KS i n base bv v (tmpl : bool) : Iv (loose ps) nobody g KS -> g_phs g = [] -> DE g -> i <> 0%nat -> get_node g i = Some n -> n_done n = false -> n_processed n = None -> unlinked g i -> BaseOf g i n base bv ->
    ok (update_node g i base v tmpl) /\
    forall ws g', update_node g i base v tmpl = (ws, Ok g') -> Nice g' /\ get_node g' i = Some (mk_node (n_name n) (n_level n) true (n_parsed n) (Some v) (tmpl || n_tmpl n)) /\ (forall j m, j <> i -> get_node g j = Some m -> get_node g' j = Some m) /\
      forall a c, c <> i -> In (a, c, DERIVE) (g_edges g) -> In (a, c, DERIVE) (g_edges g').
  Proof.
    intros I Hph HD H0 Hn Hd Hp Hun HB. assert (W := proj1 I). split.
    - unfold update_node. assert (X : exists g1 ws, (match base with Some b => replicate_descendants (remove_edge g b i) b i | None => ret g end) = (ws, Ok g1) /\ Prepared g i base g1).
      { destruct base as [b|]; [|exists g, []; split; reflexivity]. assert (W0 := WF_remove_edge g b i W). assert (Hs : get_slot (remove_edge g b i) i <> None) by (change (get_slot g i <> None); apply get_node_slot in Hn; congruence).
        destruct (replicate_ok (remove_edge g b i) b i W0 Hs) as (ws & g1 & E). exists g1, ws. split; [exact E|]. exact (replicate_spec _ _ _ _ _ W0 Hs E). }
      destruct X as (g1 & ws & E1 & HP). rewrite E1. apply ok_bind; [eexists; eexists; reflexivity|]. intros w a X. injection X as _ <-. destruct (prepared_keeps _ _ _ _ W HP) as [_ K]. rewrite (keeps_node _ _ _ _ K Hn), Hp. cbn [is_some]. unfold raise_if. rewrite bind_ret_l. apply ok_ret.
    - intros ws g' H. destruct (update_node_spec _ _ _ _ _ _ _ _ W Hn H) as (g1 & HP & _ & W' & Hs & He & Hph'). set (n' := mk_node _ _ _ _ _ _) in *. set (cs := get_element_childrens _ _) in *.
      destruct (iv_prepared (loose ps) NDC g KS i n base bv g1 I H0 Hn Hd Hun HB HP) as (KS1 & I1 & _ & _ & Hn1 & _). destruct (prepared_de g i base g1 W Hph HD HP) as [HN HD1]. destruct (prepared_keeps _ _ _ _ W HP) as [W1 K].
      assert (E1 := proj2 (proj2 I1)). assert (V1 := proj1 (proj2 I1)).
      assert (Hcs : forall c, In c cs -> In c (ckids (g_edges g1) i)). { intros c Hc. apply element_childrens_In in Hc as (t & K1 & K2 & _). apply ckids_In. exists t. auto. }
      assert (Hch : forall c t, In c cs -> In (i, c, t) (g_edges g1) -> is_child t = true) by (intros c t Hc Hin; exact (child_edges (loose ps) NDC _ g1 KS1 i n c t I1 Hn1 (Hcs c Hc) Hin)).
      split; [|split; [apply get_node_slot; rewrite Hs, Nat.eqb_refl; reflexivity|split]].
      + split; [exact W'|]. split.
        * apply phs_none; [exact W'|]. intros h path Hh. rewrite Hs in Hh. destruct (Nat.eqb i h); [discriminate|exact (HN _ _ Hh)].
        * intros a b t m Kin Ht Hm Hdm. rewrite He in Kin. destruct (Nat.eq_dec a i) as [->|Ha].
          -- destruct (set_resolved_In _ _ _ _ _ _ Kin) as [K'|[_ K']]; [|exact K']. eapply (set_resolved_all i cs); [apply (v_nd _ _ _ _ V1)|exact Hch|exact Kin|].
             apply element_childrens_In. exists t. split; [exact K'|]. split; [exact Ht|]. destruct (w_child _ E1 _ _ _ K' Ht) as [_ X]. unfold is_elem, get_node. rewrite (set_node_slot g1 i n' n Hn1). destruct (Nat.eqb i b); [reflexivity|exact X].
          -- apply set_resolved_In in Kin as [Kin|[Kin _]]; [|contradiction]. eapply (HD1 a b t m); [exact Ha|exact Kin|exact Ht| |exact Hdm]. apply get_node_slot in Hm. rewrite Hs in Hm. destruct (Nat.eqb i a) eqn:Ei; [apply Nat.eqb_eq in Ei; congruence|]. now apply get_node_slot.
      + intros j m Hj Hm. apply get_node_slot. rewrite Hs. destruct (Nat.eqb i j) eqn:Ej; [apply Nat.eqb_eq in Ej; congruence|]. apply get_node_slot. exact (keeps_node _ _ _ _ K Hm).
      + intros a c Hc Hin. rewrite He. apply (proj2 (set_resolved_facts i cs (g_edges g1) Hch)); [reflexivity|]. destruct base as [b|]; cbn in HP; [|subst g1; exact Hin]. destruct HP as (m & R). destruct (rp_edges _ _ _ _ _ R) as (new & -> & _). apply in_app_iff. right.
        apply remove_first_keep; [exact Hin|]. cbn. tauto.
  Qed.
  Lemma update_dim_ok g KS i n base bv vs tv : Iv (loose ps) nobody g KS -> g_phs g = [] -> DE g -> i <> 0%nat -> get_node g i = Some n -> n_done n = false -> n_processed n = None -> unlinked g i -> BaseOf g i n base bv ->
    ok (update_dim_node g i base vs tv) /\
    forall ws g', update_dim_node g i base vs tv = (ws, Ok g') -> Nice g' /\ get_node g' i = Some (mk_node (n_name n) (n_level n) true (n_parsed n) (Some tv) true) /\ (forall j m, j <> i -> get_node g j = Some m -> get_node g' j = Some m) /\
      forall a c, c <> i -> In (a, c, DERIVE) (g_edges g) -> In (a, c, DERIVE) (g_edges g').
  Proof.
    intros I Hph HD H0 Hn Hd Hp Hun HB. assert (W := proj1 I). destruct (update_ok g KS i n base bv tv true I Hph HD H0 Hn Hd Hp Hun HB) as [U1 U2]. split.
    - unfold update_dim_node. apply ok_bind; [exact U1|]. intros ws g1 E1. destruct (U2 _ _ E1) as [(W1 & P1 & DE1) [Hi1 _]]. rewrite Hi1. set (n' := mk_node _ _ _ _ _ _) in *.
      assert (Hpar : forall p, In p (get_element_parents g1 i) -> get_slot g1 p <> None) by (intros p Hin; apply element_parents_In in Hin as (t & K & _); apply (wf_edge _ W1 _ _ _ K)).
      apply ok_bind; [apply (instances_ok n' (get_element_parents g1 i) vs (g1, [])); [exact W1|exact Hpar]|]. intros w r Er.
      destruct (add_instances n' (get_element_parents g1 i) vs g1 [] w r W1 Hpar Er) as (xs & Wr & Kr & _ & Ej & Hxs & Hnd & Hsl & _ & Ee). rewrite Ej. cbn [app].
      apply all_edges_ok; auto.
      + intros K. apply in_map_iff in K as (x & Ex & Hx). destruct (Hsl x Hx) as [K _]. rewrite Ex in K. apply get_node_slot in Hi1. congruence.
      + assert (Hnew : forall x, In x xs -> In (i_par x) (get_element_parents g1 i)).
        { intros x Hx. assert (K : In (i_par x, i_val x) (list_prod (get_element_parents g1 i) vs)) by (rewrite <- Hxs; apply (in_map (fun x => (i_par x, i_val x))); exact Hx). apply in_prod_iff in K as [K _]. exact K. }
        assert (Hst : forall q j, In j (map i_idx xs) -> Step (fst r) q j -> In q (get_element_parents g1 i)).
        { intros q j Hj (t & K). rewrite Ee in K. apply in_app_iff in K as [K|K].
          - apply in_rev, in_map_iff in K as (x & Ex & Hx). injection Ex as <- _ _. now apply Hnew.
          - exfalso. apply in_map_iff in Hj as (x & <- & Hx). destruct (Hsl x Hx) as [Hnone _]. destruct (wf_edge _ W1 _ _ _ K). contradiction. }
        assert (Hup : forall q, In q (get_element_parents g1 i) -> Step (fst r) q i). { intros q K. apply element_parents_In in K as (t & K & _). exists t. rewrite Ee. apply in_app_iff. now right. }
        intros j Hj. split; [|split].
        * apply in_map_iff in Hj as (x & <- & Hx). destruct (Hsl x Hx) as [_ K]. congruence.
        * intros q K. apply Hup. now apply (Hst q j).
        * intros K. apply element_childrens_In in K as (t & K & _). assert (K' := Hst i j Hj (ex_intro _ t K)). apply Hup in K'. apply (wf_acyclic _ Wr i i K'). apply rt_refl.
    - intros ws g' H. destruct (update_dim_node_spec _ _ _ _ _ _ _ _ W Hn H) as (g1 & xs & (w & E1) & W' & K & Hph' & _ & _ & Hsl & Hold & Ee). destruct (U2 _ _ E1) as [(W1 & P1 & DE1) (Hi1 & Hj1 & Hk1)].
      assert (Hcases : forall a b t, In (a, b, t) (g_edges g') -> t = CHILD_RESOLVED \/ In (a, b, t) (g_edges g1)).
      { intros a b t Hin. rewrite Ee in Hin. apply in_app_iff in Hin as [Hin|Hin]; [apply in_rev, in_map_iff in Hin as (x & Ex & _); injection Ex as _ _ <-; now left|].
        apply in_app_iff in Hin as [Hin|Hin]; [apply in_rev, in_map_iff in Hin as (x & Ex & _); injection Ex as _ _ <-; now left|now right]. }
      split; [|split; [exact (keeps_node _ _ _ _ K Hi1)|split]].
      + split; [exact W'|]. split; [congruence|].
        intros a b t m Hin Ht Hm Hdm. destruct (Hcases _ _ _ Hin) as [X|X]; [exact X|]. eapply DE1; [exact X|exact Ht| |exact Hdm]. destruct (wf_edge _ W1 _ _ _ X) as [Xa _].
        destruct (get_slot g1 a) as [s|] eqn:Es; [|congruence]. apply get_node_slot in Hm. rewrite (K _ _ Es) in Hm. apply get_node_slot. congruence.
      + intros j m Hj Hm. apply (keeps_node _ _ _ _ K). now apply Hj1.
      + intros a c Hc Hin. rewrite Ee. apply in_app_iff. right. apply in_app_iff. right. now apply Hk1.
  Qed.
  Lemma evc_no_kids g KS i n e : Iv (loose ps) nobody g KS -> i <> 0%nat -> get_node g i = Some n -> n_parsed n = PaEvc e -> ckids (g_edges g) i = [].
  Proof.
    intros (W & V & E) H0 Hn He. destruct (ckids (g_edges g) i) as [|c l] eqn:Ec; [reflexivity|]. exfalso. destruct (child_level (loose ps) nobody g KS i n c V Hn) as (_ & nc & _ & _ & Hlt); [rewrite Ec; now left|].
    destruct (v_node _ _ _ _ V _ _ H0 Hn) as (L1 & _). rewrite L1, He in Hlt. cbn in Hlt. destruct Hlt as [Hlt|[Hlt _]]; [|discriminate]. cbn in Hlt. destruct (n_level nc); cbn in Hlt; lia.
  Qed.
  (** ** The invariant of a round: [l] are the nodes still to be processed *)
  Definition done_at (g : graph) (i : nat) : Prop := exists n, get_node g i = Some n /\ n_done n = true.
  Definition DimKnown (n : node) (q : svd_periph) : Prop := n_done n = true /\ exists v, n_processed n = Some v /\ forall m, DimVia ps q m -> id_dim (processed_dim v) = Some m.
  Definition Before (l : list nat) (a c : nat) : Prop := exists l1 l2, l = l1 ++ a :: l2 /\ In c l2.
  Record RI (g : graph) (KS : nat -> list parsed) (l : list nat) : Prop := {
    ri_iv : Iv (loose ps) nobody g KS; ri_sh : Sh g; ri_phs : g_phs g = []; ri_de : DE g; ri_dv : Dv g; ri_per : PerIn g l; ri_todo : forall c, In c l -> undone_at g c;
    ri_der : forall a c, In (a, c, DERIVE) (g_edges g) -> In c l /\ exists na nc p q, get_node g a = Some na /\ n_parsed na = PaPer q /\ get_node g c = Some nc /\ n_parsed nc = PaPer p /\ n_done nc = false /\ PlainBase ps p q /\
      (DimKnown na q \/ n_done na = false /\ Before l a c);
    ri_has : forall c n, get_node g c = Some n -> derived_of (n_parsed n) <> None -> n_done n = false -> exists a, In (a, c, DERIVE) (g_edges g) }.
  Lemma described_dim e bv vs tv v : Described e bv vs tv -> (match tv with Some t => v = t | None => vs = [v] end) -> processed_dim v = dim_of_base e bv.
  Proof. intros D. destruct D as [v0 _ _ _ _ _ Hdm|vs tv n idx ph _ _ _ _ _ _ _ _ _ Hdm _]; intros E; [injection E as ->; exact Hdm|subst; exact Hdm]. Qed.
  Lemma base_found g i b : In (b, i, DERIVE) (g_edges g) -> exists b', get_base_element_node g i = Some b'.
  Proof.
    intros H. unfold get_base_element_node. destruct (find _ _) as [e|] eqn:Ef; [eexists; reflexivity|]. assert (X := find_none _ _ Ef (b, i, DERIVE)). cbn in X. discriminate X. apply in_edges_In. auto.
  Qed.
  (** the base of the node to be processed next *)
  Lemma base_ready g KS i l n : RI g KS (i :: l) -> NoDup (i :: l) -> i <> 0%nat -> get_node g i = Some n -> n_done n = false -> exists base bv, BaseOf g i n base bv /\ (bv = None -> base = None) /\
    (forall p, n_parsed n = PaPer p -> forall m, DimVia ps p m -> eff_dim (PaPer p) bv = Some m) /\
    (process_node g i = match n_parsed n with PaEvc _ => process_evc_node g i base | PaDev => process_node g i | p => process_dimable g i p base bv end).
  Proof.
    intros R Hnd H0 Hn Hd. assert (V := proj1 (proj2 (ri_iv _ _ _ R))). destruct (derived_of (n_parsed n)) as [path|] eqn:Eder.
    - destruct (derived_per ps HU nobody g KS i n V Hn) as (_ & Lp & p & Hp & Hip); [congruence|]. destruct (ri_has _ _ _ R i n Hn) as (a0 & Ha0); [congruence|exact Hd|]. destruct (base_found g i a0 Ha0) as (b & Hb). assert (Hbe := base_edge _ _ _ Hb).
      destruct (ri_der _ _ _ R _ _ Hbe) as (_ & nb & n2 & p' & q & Hnb & Hq & Hn2 & Hp2 & _ & HPB & Hor). rewrite Hn in Hn2. injection Hn2 as <-. rewrite Hp in Hp2. injection Hp2 as <-.
      assert (HD : DimKnown nb q). { destruct Hor as [K|[_ (l1 & l2 & K1 & K2)]]; [exact K|]. exfalso. inversion Hnd as [|? ? Hni _]; subst. apply Hni. destruct l1 as [|x l1]; cbn in K1; injection K1 as -> ->; [exact K2|]. apply in_app_iff. right. now right. }
      destruct HD as (Hdb & v & Hv & HV). destruct (w_der _ (proj2 (proj2 (ri_iv _ _ _ R))) _ _ Hbe) as (nb' & n' & Hnb' & Hn' & Hl & _). rewrite Hnb in Hnb'. injection Hnb' as <-. rewrite Hn in Hn'. injection Hn' as <-.
      exists (Some b), (Some v). split; [|split; [discriminate|split]].
      + right. exists path, b, nb. split; [exact Eder|]. split; [reflexivity|]. split; [exact Hb|]. split; [exact Hnb|]. split; [exact Hl|]. split; [now symmetry|]. discriminate.
      + intros p' Hp' m Hm. rewrite Hp in Hp'. injection Hp' as <-. unfold eff_dim. cbn [parsed_dim]. destruct Hm as [p m Hm|p q' m Hm Hq' Hvia]; [rewrite Hm; reflexivity|]. rewrite Hm. cbn [own_or]. apply HV. rewrite <- (base_fun ps _ _ _ HPB Hq'). exact Hvia.
      + unfold process_node. rewrite Hn, Hp. unfold raise_if at 1. rewrite bind_ret_l. rewrite Hp in Eder. cbn [derived_of] in Eder |- *. rewrite Eder, Hb, Hnb, Hl, level_eqb_refl. cbn [negb]. rewrite Hv. unfold raise_if. rewrite !bind_ret_l. reflexivity.
    - exists None, None. split; [left; auto|]. split; [auto|]. split.
      + intros p Hp m Hm. rewrite Hp in Eder. cbn in Eder. unfold eff_dim. cbn [parsed_dim]. destruct Hm as [p m Hm|p q' m Hm (path & l1 & l2 & K & _) Hvia]; [rewrite Hm; reflexivity|congruence].
      + destruct (n_parsed n) eqn:Ep; try reflexivity; unfold process_node; rewrite Hn, Ep; unfold raise_if; rewrite !bind_ret_l, Eder, bind_ret_l; reflexivity.
  Qed.
  Lemma step_ok g KS i l : RI g KS (i :: l) -> NoDup (i :: l) -> i <> 0%nat -> undone_at g i -> ok (process_node g i) /\ forall ws g', process_node g i = (ws, Ok g') ->
    Nice g' /\ (exists n n', get_node g i = Some n /\ get_node g' i = Some n' /\ n_done n' = true /\ n_parsed n' = n_parsed n /\ forall p, n_parsed n = PaPer p -> DimKnown n' p) /\ (forall j m, j <> i -> get_node g j = Some m -> get_node g' j = Some m) /\
    forall a c, c <> i -> In (a, c, DERIVE) (g_edges g) -> In (a, c, DERIVE) (g_edges g').
  Proof.
    intros R Hnd H0 (n & Hn & Hd). assert (I := ri_iv _ _ _ R). assert (W := proj1 I). assert (V := proj1 (proj2 I)). assert (Hph := ri_phs _ _ _ R). assert (HD := ri_de _ _ _ R).
    assert (Hun : unlinked g i) by (intros a; apply nice_no_ph; [exact W|exact Hph|apply I]).
    destruct (v_node _ _ _ _ V _ _ H0 Hn) as (L1 & L2 & L3 & _). destruct (L3 Hd) as (Hp & Ht & _). assert (Hdev : n_parsed n <> PaDev) by (intros X; rewrite X in L2; exact L2).
    destruct (base_ready g KS i l n R Hnd H0 Hn Hd) as (base & bv & HB & Hnone & Hdim & EQ).
    assert (Hor : (exists e, n_parsed n = PaEvc e) \/ ~ is_evc (n_parsed n)) by (destruct (n_parsed n); cbn; eauto).
    destruct Hor as [(e & He)|He].
    - assert (Hb : base = None). { destruct HB as [(_ & -> & _)|(path & b & nb & K & _)]; [reflexivity|]. rewrite (HU _ L2) in K; [discriminate|]. rewrite He. discriminate. } subst base.
      rewrite He in EQ. rewrite EQ. unfold process_evc_node. rewrite bind_ret_l, Hn. split; [apply ok_ret|]. intros ws g' H. apply ret_ok in H as [<- _]. set (n' := mk_node _ _ _ _ _ _).
      assert (Hsl := set_node_slot g i n' n Hn).
      split; [|split; [exists n, n'; split; [reflexivity|]; split; [apply get_node_slot; rewrite Hsl; now rewrite Nat.eqb_refl|split; [reflexivity|split; [reflexivity|intros p K; rewrite He in K; discriminate]]]|split; [|auto]]].
      2: { intros j m Hj Hm. unfold get_node. rewrite Hsl. destruct (Nat.eqb i j) eqn:Ej; [apply Nat.eqb_eq in Ej; congruence|exact Hm]. }
      split; [apply (WF_set_node g i n' n W Hn)|]. split; [exact Hph|].
      intros a b t m Hin Hch Hm Hdm. cbn [g_edges set_node] in Hin. apply get_node_slot in Hm. rewrite Hsl in Hm. destruct (Nat.eqb i a) eqn:Ei.
      + apply Nat.eqb_eq in Ei. subst a. exfalso. assert (K := evc_no_kids g KS i n e I H0 Hn He). assert (X : In b (ckids (g_edges g) i)) by (apply ckids_In; eauto). rewrite K in X. destruct X.
      + eapply HD; [exact Hin|exact Hch|apply get_node_slot; exact Hm|exact Hdm].
    - assert (HLo : LocalOk (n_parsed n) bv).
      { destruct (level_eqb (level_of (n_parsed n)) LPeripheral) eqn:El.
        - destruct (n_parsed n) as [|p|[?|? ?]|?|?] eqn:Ep; try discriminate. apply HLP; [exact L2|]. intros m Hm. exact (Hdim p eq_refl m Hm).
        - assert (Hl : level_of (n_parsed n) <> LPeripheral) by (intros K; rewrite K in El; discriminate). destruct HB as [(_ & _ & ->)|(path & b & nb & K & _)]; [now apply HL|]. rewrite (HU _ L2 Hl) in K. discriminate. }
      destruct HLo as (w & isd & names & displays & w' & v & vs & E1 & E2). assert (Hevc : forall e, n_parsed n <> PaEvc e) by (intros e K; apply He; rewrite K; exact Logic.I).
      destruct (base_value (loose ps) NDC g KS i n base bv I H0 Hn Hd Hevc HB) as [Hsame _]. assert (HDe := created_described _ _ _ _ _ _ _ _ _ Hsame E1 E2).
      assert (EQ' : process_node g i = process_dimable g i (n_parsed n) base bv) by (destruct (n_parsed n); try exact EQ; [congruence|destruct (Hevc _ eq_refl)]). clear EQ. rewrite EQ'.
      assert (HDK : forall vt, processed_dim vt = dim_of_base (n_parsed n) bv -> forall p, n_parsed n = PaPer p -> forall m, DimVia ps p m -> id_dim (processed_dim vt) = Some m).
      { intros vt Hvt p Hpp m Hm. rewrite Hvt, Hpp. exact (Hdim p Hpp m Hm). }
      unfold process_dimable. rewrite E1. destruct isd.
      + set (tv := with_name (parsed_name (n_parsed n)) v) in *. destruct (update_dim_ok g KS i n base bv (map without_dim (v :: vs)) tv I Hph HD H0 Hn Hd Hp Hun HB) as [U1 U2]. split.
        * apply ok_bind; [eexists; eexists; reflexivity|]. intros ? ? X. injection X as _ <-. apply ok_bind; [eexists; eexists; exact E2|]. intros ? ? X. rewrite E2 in X. injection X as _ <-. exact U1.
        * intros ws g' H. apply bind_ok in H as (? & ? & ? & X & H & _). injection X as _ <-. apply bind_ok in H as (? & ? & ? & X & H & _). rewrite E2 in X. injection X as _ <-. destruct (U2 _ _ H) as (U3 & U4 & U5 & U6).
          split; [exact U3|]. split; [|auto]. exists n. eexists. split; [exact Hn|]. split; [exact U4|]. split; [reflexivity|]. split; [reflexivity|]. intros p Hpp. split; [reflexivity|]. exists tv. split; [reflexivity|]. apply HDK; [|exact Hpp]. exact (described_dim _ _ _ _ tv HDe eq_refl).
      + destruct HDe as [-> HDe]. destruct (update_ok g KS i n base bv v false I Hph HD H0 Hn Hd Hp Hun HB) as [U1 U2]. split.
        * apply ok_bind; [eexists; eexists; reflexivity|]. intros ? ? X. injection X as _ <-. apply ok_bind; [eexists; eexists; exact E2|]. intros ? ? X. rewrite E2 in X. injection X as _ <-. exact U1.
        * intros ws g' H. apply bind_ok in H as (? & ? & ? & X & H & _). injection X as _ <-. apply bind_ok in H as (? & ? & ? & X & H & _). rewrite E2 in X. injection X as _ <-. destruct (U2 _ _ H) as (U3 & U4 & U5 & U6).
          split; [exact U3|]. split; [|auto]. exists n. eexists. split; [exact Hn|]. split; [exact U4|]. split; [reflexivity|]. split; [reflexivity|]. intros p Hpp. split; [reflexivity|]. exists v. split; [reflexivity|]. apply HDK; [|exact Hpp]. exact (described_dim _ _ _ _ v HDe eq_refl).
  Qed.
  Lemma process_ok g KS i l : RI g KS (i :: l) -> NoDup (i :: l) -> i <> 0%nat -> ok (process_node g i) /\ forall ws g', process_node g i = (ws, Ok g') ->
    exists KS', RI g' KS' l /\ KS' 0%nat = KS 0%nat /\ done_at g' i /\ forall j m, j <> i -> get_node g j = Some m -> get_node g' j = Some m.
  Proof.
    intros R Hnd H0. assert (Hu := ri_todo _ _ _ R i (or_introl eq_refl)). destruct (step_ok g KS i l R Hnd H0 Hu) as [P1 P2]. split; [exact P1|]. intros ws g' E. destruct (P2 _ _ E) as (N' & (n & n' & Hn & Hn' & Hd' & Hpe & HDK) & Hold & Hder). clear P1 P2.
    assert (I := ri_iv _ _ _ R). assert (Hun : unlinked g i) by (intros a; apply nice_no_ph; [apply I|apply (ri_phs _ _ _ R)|apply I]). inversion Hnd as [|? ? Hil Hnd']; subst.
    destruct (iv_process (loose ps) NDC g KS i ws g' I (weak_elabs ps NDC g KS i I H0 Hu) H0 Hu Hun E) as (KS1 & I1 & E1 & _). assert (S1 := sh_process (loose ps) NDC g KS i ws g' I (weak_elabs ps NDC g KS i I H0 Hu) (ri_sh _ _ _ R) H0 Hu Hun E).
    assert (HDp : Dp g). { intros a c Hin. destruct (ri_der _ _ _ R _ _ Hin) as (_ & na & nc & p & q & _ & _ & Hc & Hp & Hdc & _). exists nc. split; [exact Hc|]. exact (proj1 (proj2 (name_undone ps g KS c nc p I Hc Hdc Hp))). }
    assert (D1 := dv_process ps NDC pc pc_enum g KS i ws g' I (ri_dv _ _ _ R) H0 Hu Hun (waiting_first ps g KS i I H0 HDp) E).
    assert (Pe1 := per_process ps NDC nobody g KS i ws g' l I eq_refl H0 Hu Hun E (ri_per _ _ _ R)).
    destruct (process_effect ps NDC g KS i ws g' I H0 Hu Hun E) as [_ HE].
    exists KS1. split; [|split; [exact E1|split; [exists n'; auto|exact Hold]]]. split; [exact I1|exact S1|apply N'|apply N'|exact D1|exact Pe1| | |].
    - intros c Hc. destruct (ri_todo _ _ _ R c (or_intror Hc)) as (m & Hm & Hdm). exists m. split; [apply Hold; [intros ->; contradiction|exact Hm]|exact Hdm].
    - intros a c Hin. assert (Hin0 : In (a, c, DERIVE) (g_edges g)).
      { destruct (HE _ _ Hin) as [K|(b & d & a' & K1 & K2 & K3)]; [exact K|]. exfalso. destruct (HDp _ _ K3) as (nd & Hnd2 & Hl). exact (under_level ps g KS i b d nd I H0 K1 K2 Hnd2 Hl). }
      destruct (ri_der _ _ _ R _ _ Hin0) as (Hcl & na & nc & p & q & Ha & Hq & Hc & Hp & Hdc & HPB & Hor).
      assert (Hci : c <> i). { intros ->. rewrite Hn in Hc. injection Hc as <-. destruct HPB as (path & l1 & l2 & Hpath & _). assert (X := D1 i n' Hn'). rewrite Hpe, Hd', Hp in X. cbn in X.
        assert (Y : nin (g_edges g') i = 0%nat) by (assert (nin (g_edges g') i <= 0)%nat; [apply X; split; [now left|cbn; congruence]|lia]). assert (Z := nin_In _ _ _ _ Y Hin). discriminate. }
      split; [destruct Hcl as [->|Hcl]; [congruence|exact Hcl]|]. destruct (Nat.eq_dec a i) as [->|Hai].
      + rewrite Hn in Ha. injection Ha as <-. exists n', nc, p, q. split; [exact Hn'|]. split; [congruence|]. split; [exact (Hold _ _ Hci Hc)|]. split; [exact Hp|]. split; [exact Hdc|]. split; [exact HPB|]. left. exact (HDK q Hq).
      + exists na, nc, p, q. split; [exact (Hold _ _ Hai Ha)|]. split; [exact Hq|]. split; [exact (Hold _ _ Hci Hc)|]. split; [exact Hp|]. split; [exact Hdc|]. split; [exact HPB|]. destruct Hor as [K|[K (l1 & l2 & K1 & K2)]]; [now left|]. right. split; [exact K|].
        destruct l1 as [|x l1]; cbn in K1; injection K1 as -> ->; [congruence|]. exists l1, l2. auto.
    - intros c nc Hc Hdc Huc. destruct (derived_per ps HU nobody g' KS1 c nc (proj1 (proj2 I1)) Hc Hdc) as (_ & Lc & _). assert (Hcl := Pe1 c nc Hc Lc Huc). assert (Hci : c <> i) by (intros ->; contradiction).
      assert (Hc0 : exists nc0, get_node g c = Some nc0) by (destruct (ri_todo _ _ _ R c (or_intror Hcl)) as (x & Hx & _); eauto).
      destruct Hc0 as (nc0 & Hc0). assert (X := Hold _ _ Hci Hc0). rewrite Hc in X. injection X as <-. destruct (ri_has _ _ _ R c nc Hc0 Hdc Huc) as (a & Ha). exists a. now apply Hder.
  Qed.
  Lemma fold_ok l : forall g KS, RI g KS l -> NoDup l -> ok (foldM process_node g l) /\
    forall ws g', foldM process_node g l = (ws, Ok g') -> exists KS', RI g' KS' [] /\ KS' 0%nat = KS 0%nat /\ (forall i, In i l -> done_at g' i) /\ forall i, done_at g i -> done_at g' i.
  Proof.
    induction l as [|i l IH]; intros g KS R Hnd; cbn [foldM].
    - split; [apply ok_ret|]. intros ws g' H. apply ret_ok in H as [<- _]. exists KS. split; [exact R|]. split; [reflexivity|]. split; [intros i []|auto].
    - assert (Hi0 : i <> 0%nat). { intros ->. destruct (ri_todo _ _ _ R _ (or_introl eq_refl)) as (n & Hn & Hd). rewrite (v_root _ _ _ _ (proj1 (proj2 (ri_iv _ _ _ R)))) in Hn. injection Hn as <-. discriminate. }
      destruct (process_ok g KS i l R Hnd Hi0) as [P1 P2]. inversion Hnd as [|? ? _ Hnd']; subst. split.
      + apply ok_bind; [exact P1|]. intros ws g1 E. destruct (P2 _ _ E) as (KS1 & R1 & _). apply (IH g1 KS1 R1 Hnd').
      + intros ws g' H. apply bind_ok in H as (w1 & g1 & w2 & E & H & _). destruct (P2 _ _ E) as (KS1 & R1 & E1 & D1 & D2).
        destruct (IH g1 KS1 R1 Hnd') as [_ X]. destruct (X _ _ H) as (KS' & R' & E' & X1 & X2). exists KS'. split; [exact R'|]. split; [congruence|].
        split; [intros j [<-|Hj]; [now apply X2|now apply X1]|]. intros j (m & Hm & Hd). apply X2. destruct (Nat.eq_dec j i) as [->|Hj]; [exact D1|]. exists m. split; [now apply D2|exact Hd].
  Qed.
  (** ** The rounds *)
  Definition todo (g : graph) : list nat := topological_sorted g (find_processable g).
  Lemma todo_undone g i : WF g -> In i (todo g) -> undone_at g i.
  Proof.
    intros W K. destruct (topological_sorted_spec g (find_processable g) W) as (_ & _ & Hin). apply Hin in K as [_ K]. unfold unprocessed in K. destruct (get_node g i) as [n|] eqn:En; [|discriminate]. exists n. split; [exact En|]. now destruct (n_done n).
  Qed.
  (** what holds at the start of a round *)
  Definition RR (g : graph) (KS : nat -> list parsed) : Prop := exists g1, resolve_placeholders g = ret g1 /\ RI g1 KS (todo g1) /\ forall x, get_node g1 x = get_node g x.
  Lemma later_round g KS : RI g KS [] -> RR g KS.
  Proof.
    intros R. exists g. split; [unfold resolve_placeholders; rewrite (ri_phs _ _ _ R); reflexivity|]. split; [|reflexivity]. destruct R as [R1 R2 R3 R4 R5 R6 R7 R8 R9]. split; auto.
    - intros x n Hx Hl Hd. destruct (R6 x n Hx Hl Hd).
    - intros c. apply todo_undone. apply R1.
    - intros a c K. destruct (R8 a c K) as ([] & _).
  Qed.
  Lemma first_round w g : initialization ps = (w, Ok g) -> exists KS, RR g KS /\ KS 0%nat = map PaPer ps.
  Proof.
    intros E. destruct (rs_initialization ps w g E) as (KS & R0). destruct (resolves_ok ps HU HG g KS R0) as (g1 & E1 & R1 & P1 & N1). exists KS. destruct (rs_start _ _ _ R1) as (I & K0 & Fi & HDp & HT & HS). split; [|exact K0]. exists g1. split; [exact E1|]. split; [|exact N1].
    assert (W := proj1 I). assert (V := proj1 (proj2 I)). destruct (topological_sorted_spec g1 (find_processable g1) W) as (Hnd & Hfw & Hin).
    assert (HPI : PerIn g1 (todo g1)). { intros x n Hx Hl Hd. exact (first_list ps (grounded_plain ps HG) g KS [] g1 x n (rs_start _ _ _ R0) E1 Hx Hl Hd). }
    assert (Hpt : forall p c, Per g1 p c -> In c (todo g1)). { intros p c (n & Hn & Hd & Hp). apply (HPI c n Hn); [|exact Hd]. exact (proj1 (proj2 (name_undone ps g1 KS c n p I Hn Hd Hp))). }
    split; [exact I|exact HS|exact P1| |exact (rs_dv _ _ _ R1)|exact HPI| | |].
    - intros a b t n Hab Ht Hn Hd. assert (a = 0%nat) by exact (Fi _ _ Hn Hd). subst a. exact (HT b t Hab Ht).
    - intros c. apply todo_undone. exact W.
    - intros a c Hac. destruct (der_base ps HU HG g1 KS a c I Fi Hac) as (p & q & Hc & Ha & HB). assert (Hct := Hpt _ _ Hc). assert (Hat := Hpt _ _ Ha). split; [exact Hct|]. destruct Hc as (nc & Hc & Hdc & Hpc), Ha as (na & Ha & Hda & Hpa).
      exists na, nc, p, q. split; [exact Ha|]. split; [exact Hpa|]. split; [exact Hc|]. split; [exact Hpc|]. split; [exact Hdc|]. split; [exact HB|]. right. split; [exact Hda|].
      destruct (Hfw a c Hat Hct (ex_intro _ DERIVE Hac)) as (l1 & l2 & l3 & E3). exists l1, (l2 ++ c :: l3). split; [exact E3|apply in_elt].
    - intros c n Hn Hder Hd. destruct (rs_has _ _ _ R1 c n Hn Hder Hd) as [(h & K)|K]; [|exact K]. destruct (nice_no_ph g1 h c W P1 (proj2 (proj2 I)) K).
  Qed.
  Lemma rounds_ok fuel : forall g KS prev, RR g KS -> (forall i, In i prev -> done_at g i) -> out_of_fuel (rounds fuel g prev) \/ ok (rounds fuel g prev).
  Proof.
    induction fuel as [|fuel IH]; intros g KS prev (g1 & E1 & R & N1) Hprev; cbn [rounds]; [left; reflexivity|]. rewrite E1, bind_ret_l. assert (W := proj1 (ri_iv _ _ _ R)).
    destruct (topological_sorted_spec g1 (find_processable g1) W) as (Hnd & _). assert (Hu := fun i => todo_undone g1 i W). unfold todo in *. destruct (topological_sorted g1 (find_processable g1)) as [|x l] eqn:Et; [right; apply ok_ret|].
    assert (Hnp : list_nat_eqb (x :: l) prev = false).
    { unfold list_nat_eqb. destruct (list_eq_dec Nat.eq_dec (x :: l) prev) as [<-|_]; [|reflexivity]. exfalso. destruct (Hu x (or_introl eq_refl)) as (n & Hn & Hd). destruct (Hprev x (or_introl eq_refl)) as (m & Hm & Hd'). rewrite N1 in Hn. congruence. }
    rewrite Hnp. unfold raise_if. rewrite bind_ret_l. destruct (fold_ok (x :: l) g1 KS R Hnd) as [F1 F2].
    destruct F1 as (ws & g2 & E). destruct (F2 _ _ E) as (KS2 & R2 & _ & D & _). destruct (IH g2 KS2 (x :: l) (later_round _ _ R2) D) as [O|(ws' & g3 & O)].
    - left. rewrite E. unfold out_of_fuel, bind in *. destruct (rounds fuel g2 (x :: l)) as [w r]. exact O.
    - right. rewrite E. cbn [bind]. rewrite O. eexists; eexists; reflexivity.
  Qed.
  (** ... and nothing is left over *)
  Lemma stuck_done g KS : RI g KS [] -> todo g = [] -> forall i n, get_node g i = Some n -> n_done n = true.
  Proof.
    intros RR Et i n Hn. unfold todo in Et. assert (I := ri_iv _ _ _ RR). destruct (topological_sorted_spec g (find_processable g) (proj1 I)) as (_ & _ & Hin). rewrite Et in Hin.
    assert (V := proj1 (proj2 I)). assert (E := proj2 (proj2 I)).
    assert (R : Rooted g i) by (apply (sh_root _ (ri_sh _ _ _ RR)); apply is_elem_node; eauto).
    assert (K : forall x, Rooted g x -> done_at g x).
    { intros x Rx. apply clos_rt_rtn1 in Rx. induction Rx as [|y z Hyz _ IHR]; [exists root_node; split; [apply (v_root _ _ _ _ V)|reflexivity]|].
      destruct IHR as (ny & Hny & Hdy). assert (Hk := Hyz). unfold Kid in Hk. apply ckids_In in Hk as (t & Hk & Ht). assert (Hcr := ri_de _ _ _ RR _ _ _ _ Hk Ht Hny Hdy). subst t.
      destruct (w_child _ E _ _ _ Hk Ht) as [_ Hz]. apply is_elem_node in Hz as (nz & Hz). exists nz. split; [exact Hz|]. destruct (n_done nz) eqn:Ed; [reflexivity|]. exfalso.
      assert (U : unprocessed g z = true) by (unfold unprocessed; now rewrite Hz, Ed).
      assert (Hroot : In z (unprocessed_root_nodes g)). { unfold unprocessed_root_nodes, unprocessed_nodes. apply filter_In. split; [apply filter_In; split; [apply node_indices_In; apply get_node_slot in Hz; congruence|exact U]|].
        unfold has_incoming. apply existsb_exists. exists (y, z, CHILD_RESOLVED). split; [|reflexivity]. apply in_edges_In. split; [exact Hk|reflexivity]. }
      apply (proj2 (Hin z)). split; [|exact U]. unfold find_processable. apply filter_In. split.
      - set (roots := unprocessed_root_nodes g) in *. assert (Hlen : forall x, (length (processable_succ g x) <= length (out_edges g x))%nat). { intros x. unfold processable_succ. destruct (has_incoming g PLACEHOLDER x); [cbn; lia|]. unfold get_element_childrens. rewrite map_length. apply filter_length_le. }
        destruct (dfs_spec g (processable_succ g) Hlen (dfs_fuel g roots) (rev roots) []) as (_ & Hi2 & _).
        + unfold unvisited_edges, dfs_fuel. rewrite rev_length. assert (X := filter_length_le (fun e => negb (mem_nat (e_src e) [])) (g_edges g)). lia.
        + apply Hi2. now apply -> in_rev.
      - apply negb_true_iff. unfold has_incoming. destruct (existsb _ _) eqn:Ex; [|reflexivity]. apply existsb_exists in Ex as ([[a b] t] & K1 & K2). apply in_edges_In in K1 as [K1 _]. destruct t; try discriminate. destruct (nice_no_ph g _ _ (proj1 I) (ri_phs _ _ _ RR) E K1). }
    destruct (K i R) as (m & Hm & Hd). rewrite Hn in Hm. injection Hm as <-. exact Hd.
  Qed.
  Lemma rounds_done fuel : forall g KS prev ws g', RR g KS -> rounds fuel g prev = (ws, Ok g') -> exists KS', RI g' KS' [] /\ KS' 0%nat = KS 0%nat /\ forall i n, get_node g' i = Some n -> n_done n = true.
  Proof.
    induction fuel as [|fuel IH]; intros g KS prev ws g' (g1 & E1 & R & N1) H; cbn [rounds] in H; [minv|]. rewrite E1, bind_ret_l in H. assert (W := proj1 (ri_iv _ _ _ R)).
    destruct (topological_sorted_spec g1 (find_processable g1) W) as (Hnd & _). unfold todo in R. destruct (topological_sorted g1 (find_processable g1)) as [|x l] eqn:Et.
    - apply ret_ok in H as [<- _]. exists KS. split; [exact R|]. split; [reflexivity|]. now apply (stuck_done g1 KS).
    - apply bind_ok in H as (w1 & u & w2 & _ & H & _). apply bind_ok in H as (w3 & g2 & w4 & E & H & _).
      destruct (fold_ok (x :: l) g1 KS R Hnd) as [F1 F2]. destruct (F2 _ _ E) as (KS2 & R2 & E2 & D & _). destruct (IH _ _ _ _ _ (later_round _ _ R2) H) as (KS' & R' & E' & X). exists KS'. split; [exact R'|]. split; [congruence|exact X].
  Qed.
End Accept.

(** ** The bottom-up pass *)
Definition declared_size (e : parsed) : option Z :=
  match e with PaPer p => op_size (sp_props p) | PaRc (SReg r) => op_size (sr_props r) | PaRc (SClu c _) => op_size (sc_props c) | _ => None end.
Definition fbits (v : processed) : option (Z * Z) := match v with PrFld f => Some (fb_lsb (if_b f), fb_msb (if_b f)) | _ => None end.
Definition NN (v : processed) : Prop := forall s, processed_size v = Some s -> 0 <= s.
Definition EvcsOk (es : list svd_evc) (lsb msb : Z) : Prop :=
  exists ics, Forall2 (fun e c => exists w, create_evc e lsb msb = (w, Ok c)) es ics /\ usages_ok (map ievc_usage ics).

Lemma usages_perm us us' : Permutation us us' -> usages_ok us -> usages_ok us'.
Proof.
  intros P [->|[(u & ->)|[->| ->]]].
  - apply Permutation_nil in P as ->. now left.
  - apply Permutation_length_1_inv in P as ->. right. left. eauto.
  - apply Permutation_length_2_inv in P as [->| ->]; [right; right; now left|right; right; now right].
  - apply Permutation_length_2_inv in P as [->| ->]; [right; right; now right|right; right; now left].
Qed.
Lemma inh_nn {A} own (f : A -> option Z) base s : (forall x, own = Some x -> 0 <= x) -> (forall b x, base = Some b -> f b = Some x -> 0 <= x) -> inh own f base = Some s -> 0 <= s.
Proof. unfold inh, own_or. intros H1 H2. destruct own as [x|]; [intros E; apply H1; exact E|]. destruct base as [b|]; [intros E; exact (H2 b s eq_refl E)|discriminate]. Qed.
Lemma described_nn e bv vs tv v : Described e bv vs tv -> (forall s, declared_size e = Some s -> 0 <= s) -> (forall b, bv = Some b -> NN b) -> In v vs \/ tv = Some v -> NN v.
Proof.
  intros D HS HB H. assert (HA : Attributes e bv v).
  { destruct D as [v0 _ _ _ HA _ _ _|vs tv n idx ph _ _ _ _ _ Hn _ _ HA _ _]; [destruct H as [[<-|[]]|H]; [exact HA|discriminate]|].
    destruct H as [H|H]; [|injection H as ->; exact HA]. apply In_nth_error in H as (k & H). destruct (Hn k v H) as (ix & _ & _ & _ & K' & _). exact K'. }
  intros s Hs. destruct e as [|p|[r|c l]|f|x], v as [p'|[r'|c' l']|f']; cbn in HA; try contradiction; cbn in Hs, HS; try discriminate; decompose [and] HA;
    match goal with K : PropsFrom _ _ _ |- _ => destruct K as (K & _); rewrite K in Hs end; eapply inh_nn; try exact Hs; try exact HS; intros o x Ho Hx.
  - destruct bv as [[b|[b|b bl]|b]|]; try discriminate. injection Ho as <-. exact (HB _ eq_refl x Hx).
  - destruct bv as [[b|[b|b bl]|b]|]; try discriminate. injection Ho as <-. exact (HB _ eq_refl x Hx).
  - destruct bv as [[b|[b|b bl]|b]|]; try discriminate. injection Ho as <-. exact (HB _ eq_refl x Hx).
Qed.
Lemma elab_nn ps e ks vs tv : (forall e s, Declared ps e -> declared_size e = Some s -> 0 <= s) -> Elabw ps e ks vs tv -> Declared ps e -> forall v, In v vs \/ tv = Some v -> NN v.
Proof.
  intros HZ HE. induction HE as [e vs tv _ HD|e path eb kb vsb tvb bv vs tv _ Hb _ _ IH Hbv _ HD]; intros De v Hv; (eapply described_nn; [exact HD|intros s; now apply HZ| |exact Hv]); intros b0 E; [discriminate|]. injection E as <-. now apply IH.
Qed.

Lemma described_ne e bv vs tv : Described e bv vs tv -> vs <> [].
Proof. destruct 1 as [v _ _ _ _ _ _|vs tv n idx ph _ Hge Hlen _ _ _ _ _ _ _ _]; [discriminate|]. intros ->. cbn in Hlen. lia. Qed.

Lemma described_evc e bv vs tv : Described (PaEvc e) bv vs tv -> False.
Proof. destruct 1 as [v _ _ _ HA _ _|vs tv n idx ph _ _ _ _ _ _ _ _ HA _ _]; exact HA. Qed.

Section Pass.
  Context (ps : list svd_periph) (HEV : forall e, Declared ps e -> is_evc e -> derived_of e = None) (HZ : forall e s, Declared ps e -> declared_size e = Some s -> 0 <= s).
  Context (g : graph) (KS : nat -> list parsed) (I : Iv (loose ps) nobody g KS) (HSh : Sh g) (HPh : g_phs g = []) (HND : forall a b, ~ In (a, b, DERIVE) (g_edges g)) (Done : forall i n, get_node g i = Some n -> n_done n = true).
  Context (HFN : forall i n f v, get_node g i = Some n -> i <> 0%nat -> n_tmpl n = false -> n_parsed n = PaFld f -> n_processed n = Some (PrFld v) ->
    exists es, KS i = map PaEvc es /\ EvcsOk es (fb_lsb (if_b v)) (fb_msb (if_b v))).
  Let Wf := proj1 I.
  Let V := proj1 (proj2 I).
  Let E := proj2 (proj2 I).

  Lemma only_children a b t : In (a, b, t) (g_edges g) -> is_child t = true.
  Proof. intros H. destruct t; try reflexivity; exfalso; [exact (nice_no_ph g a b Wf HPh E H)|exact (HND a b H)]. Qed.
  Lemma succ_kid i c : In c (successors g i) <-> Kid g i c.
  Proof.
    rewrite successors_In. unfold Kid. rewrite ckids_In. unfold Step. split; [intros (t & K); exists t; split; [exact K|now apply (only_children i c t)]|intros (t & K & _); eauto].
  Qed.
  Lemma succ_perm i : Permutation (successors g i) (ckids (g_edges g) i).
  Proof. apply NoDup_Permutation; [apply successors_NoDup|apply (v_nd _ _ _ _ V)|]. intros c. apply succ_kid. Qed.
  Definition under (a b : level) : Prop :=
    match a, b with LDevice, LPeripheral | LPeripheral, (LRegister | LCluster) | LCluster, (LRegister | LCluster) | LRegister, LField | LField, LEnum => True | _, _ => False end.
  Lemma kid_kind i n c : get_node g i = Some n -> Kid g i c -> exists nc, get_node g c = Some nc /\ c <> 0%nat /\ under (n_level n) (n_level nc).
  Proof.
    intros Hn Hc. destruct (child_level (loose ps) nobody g KS i n c V Hn Hc) as (H0 & nc & Hnc & Hl & _). exists nc. split; [exact Hnc|]. split; [exact H0|].
    destruct (v_kids _ _ _ _ V i) as (fams & P & F); [apply is_elem_node; eauto|]. destruct (Fams_in _ _ _ _ _ _ _ c F) as (e & fam & He & _ & HFa & Hin); [eapply Permutation_in; [exact P|exact Hc]|].
    destruct (Fam_level _ _ _ _ _ _ _ c HFa Hin) as (nc' & Hnc' & Hl'). rewrite Hnc in Hnc'. injection Hnc' as <-. rewrite Hl, Hl'.
    destruct (v_prov _ _ _ _ V i n e Hn He) as [[-> ->]|(e0 & _ & <- & Hk)]; [exact Logic.I|]. destruct e0 as [|p|[r|x l]|f|x]; cbn in Hk; try contradiction; apply in_map_iff in Hk as (y & <- & _); try exact Logic.I; destruct y; exact Logic.I.
  Qed.

  Record QI (gs : graph) : Prop := {
    q_edges : g_edges gs = g_edges g;
    q_wf : WF gs;
    q_none : forall i, get_node g i = None -> get_node gs i = None;
    q_node : forall i n, get_node g i = Some n -> exists w, get_node gs i = Some (with_val n w) /\
      (i <> 0%nat -> n_level n <> LEnum -> exists v o, n_processed n = Some v /\ w = Some o /\ kind_level o = n_level n /\ fbits o = fbits v /\ NN o) }.
  Lemma not_evc i n : i <> 0%nat -> get_node g i = Some n -> n_level n <> LEnum -> ~ is_evc (n_parsed n).
  Proof. intros H0 Hn Hl K. destruct (v_node _ _ _ _ V _ _ H0 Hn) as (L1 & _). destruct (n_parsed n); try contradiction. Qed.
  Lemma elem_done i n : i <> 0%nat -> get_node g i = Some n -> n_level n <> LEnum -> exists vs tv v, Elabw ps (n_parsed n) (KS i) vs tv /\ n_processed n = Some v /\ (if n_tmpl n then tv = Some v else In v vs) /\ kind_level v = n_level n.
  Proof.
    intros H0 Hn Hl. destruct (v_node _ _ _ _ V _ _ H0 Hn) as (L1 & L2 & _ & L4). destruct (L4 (Done _ _ Hn)) as [(e0 & e' & K & _)|[_ (sc & vs & tv & v & K1 & K2 & K3 & _ & _ & K4)]].
    - destruct (not_evc i n H0 Hn Hl). rewrite K. exact Logic.I.
    - exists vs, tv, v. auto.
  Qed.
  Lemma qi_start : QI g.
  Proof.
    split; auto. intros i n Hn. exists (n_processed n). split; [rewrite Hn; destruct n; reflexivity|]. intros H0 Hl. destruct (elem_done i n H0 Hn Hl) as (vs & tv & v & D & Hv & Hin & Hk).
    exists v, v. split; [exact Hv|]. split; [exact Hv|]. split; [exact Hk|]. split; [reflexivity|]. apply (elab_nn ps _ _ _ _ HZ D); [|destruct (n_tmpl n); auto]. apply (v_node _ _ _ _ V _ _ H0 Hn).
  Qed.
  Lemma qi_set gs i n o v : QI gs -> i <> 0%nat -> get_node g i = Some n -> n_level n <> LEnum -> n_processed n = Some v -> kind_level o = n_level n -> fbits o = fbits v -> NN o -> QI (set_processed gs i o).
  Proof.
    intros Q H0 Hn Hl Hv Hk Hb Ho. destruct (q_node _ Q _ _ Hn) as (w & Hg & _). unfold set_processed. rewrite Hg. set (n' := mk_node _ _ _ _ _ _).
    assert (Hs := set_node_slot gs i n' _ Hg). split.
    - exact (q_edges _ Q).
    - exact (WF_set_node gs i n' _ (q_wf _ Q) Hg).
    - intros j Hj. unfold get_node. rewrite Hs. destruct (Nat.eqb i j) eqn:Ej; [apply Nat.eqb_eq in Ej; congruence|]. exact (q_none _ Q j Hj).
    - intros j m Hm. unfold get_node. rewrite Hs. destruct (Nat.eqb i j) eqn:Ej; [|exact (q_node _ Q j m Hm)]. apply Nat.eqb_eq in Ej. subst j. rewrite Hn in Hm. injection Hm as <-.
      exists (Some o). split; [reflexivity|]. intros _ _. exists v, o. auto 6.
  Qed.
  Lemma q_value gs c nc : QI gs -> c <> 0%nat -> get_node g c = Some nc -> n_level nc <> LEnum -> exists v o, n_processed nc = Some v /\ node_processed gs c = ([], Ok o) /\ kind_level o = n_level nc /\ fbits o = fbits v /\ NN o.
  Proof.
    intros Q H0 Hn Hl. destruct (q_node _ Q _ _ Hn) as (w & Hg & K). destruct (K H0 Hl) as (v & o & K1 & -> & K2 & K3 & K4). exists v, o. split; [exact K1|]. split; [unfold node_processed; rewrite Hg; reflexivity|auto].
  Qed.
  Lemma q_tmpl gs c : QI gs -> is_tmpl gs c = is_tmpl g c.
  Proof. intros Q. unfold is_tmpl. destruct (get_node g c) as [n|] eqn:En; [destruct (q_node _ Q _ _ En) as (w & -> & _); reflexivity|now rewrite (q_none _ Q _ En)]. Qed.
  Lemma q_elem gs c : QI gs -> is_elem gs c = is_elem g c.
  Proof. intros Q. unfold is_elem. destruct (get_node g c) as [n|] eqn:En; [destruct (q_node _ Q _ _ En) as (w & -> & _); reflexivity|now rewrite (q_none _ Q _ En)]. Qed.
  Lemma q_parents gs c : QI gs -> get_element_parents gs c = get_element_parents g c.
  Proof. intros Q. unfold get_element_parents, in_edges. rewrite (q_edges _ Q). f_equal. apply filter_ext. intros e. now rewrite (q_elem _ _ Q). Qed.
  Lemma q_children gs cs lv : QI gs -> (forall c, In c cs -> exists nc, get_node g c = Some nc /\ c <> 0%nat /\ n_level nc <> LEnum /\ under lv (n_level nc)) ->
    exists vs, processed_children gs cs = ([], Ok vs) /\ forall v, In v vs -> under lv (kind_level v).
  Proof.
    intros Q. unfold processed_children. induction cs as [|c cs IH]; intros H; cbn [filter mapM]; [exists []; split; [reflexivity|intros v []]|].
    destruct IH as (vs & Hvs & IHv); [intros c' Hc'; apply H; now right|]. destruct (negb (is_tmpl gs c)); [|exists vs; auto]. cbn [mapM]. destruct (H c (or_introl eq_refl)) as (nc & Hnc & H0 & Hl & Hun).
    destruct (q_value gs c nc Q H0 Hnc Hl) as (v & o & _ & Ho & Hk & _). rewrite (q_elem _ _ Q). assert (He : is_elem g c = true) by (apply is_elem_node; eauto). rewrite He, Ho. cbn [bind]. rewrite Hvs. exists (o :: vs). split; [reflexivity|].
    intros x [<-|Hx]; [rewrite Hk; exact Hun|now apply IHv].
  Qed.
  Lemma parent_size_ok gs : QI gs -> forall fuel i n, (rank gs i < fuel)%nat -> i <> 0%nat -> get_node g i = Some n -> n_level n = LPeripheral \/ n_level n = LCluster \/ n_level n = LRegister ->
    exists x, parent_size gs fuel i = ([], Ok x) /\ 0 <= x.
  Proof.
    intros Q. induction fuel as [|fuel IH]; intros i n Hr H0 Hn Hl; [lia|]. cbn [parent_size]. rewrite (q_parents _ _ Q).
    assert (Hpar : get_element_parents g i <> []). { assert (R : Rooted g i) by (apply (sh_root _ HSh); apply is_elem_node; eauto). apply clos_rt_rtn1 in R. destruct R as [|y z Hyz _]; [congruence|].
      apply (proj2 (parents_ckids g z y E)) in Hyz. intros X. rewrite X in Hyz. destruct Hyz. }
    destruct (get_element_parents g i) as [|p l] eqn:Ep; [congruence|]. assert (Hk : Kid g p i) by (apply (parents_ckids g i p E); rewrite Ep; now left).
    assert (Hpe : is_elem g p = true). { assert (X : In p (get_element_parents g i)) by (rewrite Ep; now left). apply element_parents_In in X as (t & _ & _ & X). exact X. } apply is_elem_node in Hpe as (np & Hnp). destruct (kid_kind p np i Hnp Hk) as (n' & Hn' & _ & Hun). rewrite Hn in Hn'. injection Hn' as <-.
    destruct (q_node _ Q _ _ Hnp) as (w & Hg & Hval). rewrite Hg. cbn [n_level with_val].
    assert (Hrank : (rank gs p < fuel)%nat). { assert (X : (rank gs p < rank gs i)%nat); [|lia]. apply rank_lt; [exact (q_wf _ Q)|]. unfold Kid in Hk. apply ckids_In in Hk as (t & Hk & _). exists t. now rewrite (q_edges _ Q). }
    destruct (Nat.eq_dec p 0) as [->|Hp0]; [rewrite (v_root _ _ _ _ V) in Hnp; injection Hnp as <-; cbn; exists 32; split; [reflexivity|lia]|].
    assert (Hlp : n_level np = LPeripheral \/ n_level np = LCluster). { destruct (n_level np) eqn:El; auto; [|destruct Hl as [Hl|[Hl|Hl]]; rewrite Hl in Hun; destruct Hun..]. destruct Hp0. exact (only_root (loose ps) g KS p np I Hnp El). }
    assert (Hle : n_level np <> LEnum) by (destruct Hlp as [-> | ->]; discriminate). destruct (q_value gs p np Q Hp0 Hnp Hle) as (v & o & _ & Ho & Hko & _ & Hnn).
    assert (Hne : n_level np <> LDevice) by (destruct Hlp as [-> | ->]; discriminate).
    assert (EQ : (x <- node_processed gs p ;; match x with PrPer _ | PrRc (IClu _ _) => match processed_size x with Some s => ret s | None => parent_size gs fuel p end | _ => raise ResolveException "Parent of node is not a Peripheral or Cluster" end)
      = match processed_size o with Some s => ret s | None => parent_size gs fuel p end).
    { rewrite Ho. unfold bind. cbn [app]. destruct Hlp as [L|L]; rewrite L in Hko; destruct o as [o|[o|o ol]|o]; try discriminate; destruct (processed_size _); try reflexivity; destruct (parent_size gs fuel p); reflexivity. }
    assert (Hgoal : exists x, (x <- node_processed gs p ;; match x with PrPer _ | PrRc (IClu _ _) => match processed_size x with Some s => ret s | None => parent_size gs fuel p end | _ => raise ResolveException "Parent of node is not a Peripheral or Cluster" end) = ([], Ok x) /\ 0 <= x).
    { rewrite EQ. destruct (processed_size o) as [s|] eqn:Es; [exists s; split; [reflexivity|now apply Hnn]|]. apply (IH p np Hrank Hp0 Hnp). destruct Hlp; auto. }
    destruct (n_level np); try congruence; exact Hgoal.
  Qed.
  Lemma calc_ok gs : QI gs -> forall cs, (forall c, In c cs -> exists nc, get_node g c = Some nc /\ c <> 0%nat /\ (n_level nc = LRegister \/ n_level nc = LCluster)) -> forall m, -1 <= m ->
    exists m', foldM (fun m i => v <- node_processed gs i ;; match v with PrRc _ => if is_tmpl gs i then ret m else s <- child_size gs i v ;; ret (if m <? s then s else m) | _ => raise ResolveException "node is not of type Register or Cluster" end) m cs = ([], Ok m')
      /\ m <= m' /\ ((exists c, In c cs /\ is_tmpl g c = false) -> 0 <= m').
  Proof.
    intros Q. induction cs as [|c cs IH]; intros H m Hm; cbn [foldM]; [exists m; split; [reflexivity|]; split; [lia|]; intros (c & [] & _)|].
    destruct (H c (or_introl eq_refl)) as (nc & Hnc & H0 & Hl). assert (Hle : n_level nc <> LEnum) by (destruct Hl as [-> | ->]; discriminate). destruct (q_value gs c nc Q H0 Hnc Hle) as (v & o & _ & Ho & Hk & _ & Hnn).
    assert (Hx : exists x, o = PrRc x) by (destruct Hl as [L|L]; rewrite L in Hk; destruct o as [o|[o|o ol]|o]; try discriminate; eauto). destruct Hx as (x & ->).
    assert (Hs : exists s, child_size gs c (PrRc x) = ([], Ok s) /\ 0 <= s).
    { unfold child_size. destruct (processed_size (PrRc x)) as [s|] eqn:Es; [|apply (parent_size_ok gs Q _ c nc); auto; [apply Nat.lt_succ_r, rank_slots|destruct Hl; auto]].
      exists (if s mod 8 =? 0 then s else 0). split; [reflexivity|]. assert (X := Hnn s Es). destruct (s mod 8 =? 0); lia. }
    destruct Hs as (s & Hs & Hs0). rewrite Ho. rewrite (q_tmpl _ _ Q). set (m1 := if is_tmpl g c then m else if m <? s then s else m).
    assert (EQ : (v <- ([], Ok (PrRc x)) ;; match v with PrRc _ => if is_tmpl g c then ret m else s <- child_size gs c v ;; ret (if m <? s then s else m) | _ => raise ResolveException "node is not of type Register or Cluster" end) = ([], Ok m1)).
    { unfold m1. cbn [bind]. destruct (is_tmpl g c); [reflexivity|]. rewrite Hs. reflexivity. }
    rewrite EQ. assert (Hm1 : m <= m1 /\ (is_tmpl g c = false -> 0 <= m1)) by (unfold m1; destruct (is_tmpl g c); [split; [lia|discriminate]|]; destruct (m <? s) eqn:Ec; split; intros; lia).
    destruct (IH (fun c' Hc' => H c' (or_intror Hc')) m1) as (m' & Hf & Hle' & Hex); [lia|]. exists m'. cbn [bind]. rewrite Hf. split; [reflexivity|]. split; [lia|].
    intros (c' & [<-|Hc'] & Ht); [assert (X := proj2 Hm1 Ht); lia|]. apply Hex. eauto.
  Qed.
  Lemma real_child i n c : get_node g i = Some n -> n_level n <> LField -> Kid g i c -> exists c', Kid g i c' /\ is_tmpl g c' = false.
  Proof.
    intros Hn Hl Hc. destruct (v_kids _ _ _ _ V i) as (fams & P & F); [apply is_elem_node; eauto|]. destruct (Fams_in _ _ _ _ _ _ _ c F) as (e & fam & He & Hfam & HFa & Hin); [eapply Permutation_in; [exact P|exact Hc]|].
    assert (Hsub : forall x, In x fam -> Kid g i x) by (intros x Hx; unfold Kid; eapply Permutation_in; [apply Permutation_sym; exact P|]; apply in_concat; eauto).
    destruct HFa as [e c0 n0 Hn0 Hd _|e c0 n0 [] _ _|e0 e' c0 n0 _ _ _ _|e c0 n0 v Hn0 _ Ht _ _ _|e c0 n0 js vs tv Hn0 _ _ _ _ HE F2].
    - rewrite (Done _ _ Hn0) in Hd. discriminate.
    - exfalso. destruct (v_prov _ _ _ _ V i n _ Hn He) as [[_ X]|(x & _ & X & Hk)]; [discriminate|]. destruct x as [|p|[r|y l]|f|y]; cbn in Hk; try contradiction; apply in_map_iff in Hk as (z & Ez & _); try discriminate. cbn in X. congruence.
    - exists c0. split; [apply Hsub; now left|]. unfold is_tmpl. now rewrite Hn0.
    - assert (Hne : vs <> []). { assert (HD : exists bv, Described e bv vs (Some tv)) by (destruct HE; eauto). destruct HD as (bv & HD). exact (described_ne _ _ _ _ HD). }
      destruct F2 as [|j v js vs (nj & Hj & _ & Ht & _) _]; [congruence|]. exists j. split; [apply Hsub; right; now left|]. unfold is_tmpl. now rewrite Hj.
  Qed.
  Lemma rcs_ok gs i n : QI gs -> get_node g i = Some n -> n_level n = LPeripheral \/ n_level n = LCluster -> successors g i <> [] -> exists r, finalize_rcs gs (successors g i) = ([], Ok r) /\ 0 <= fst r.
  Proof.
    intros Q Hn Hl Hs. assert (Hkids : forall c, In c (successors g i) -> exists nc, get_node g c = Some nc /\ c <> 0%nat /\ (n_level nc = LRegister \/ n_level nc = LCluster)).
    { intros c Hc. apply succ_kid in Hc. destruct (kid_kind i n c Hn Hc) as (nc & K1 & K2 & K3). exists nc. split; [exact K1|]. split; [exact K2|]. destruct Hl as [L|L]; rewrite L in K3; destruct (n_level nc); auto; destruct K3. }
    unfold finalize_rcs, calculate_size. destruct (calc_ok gs Q _ Hkids (-1)) as (m & Hm & _ & Hex); [lia|]. rewrite Hm. cbn [bind].
    assert (H0 : 0 <= m). { apply Hex. destruct (successors g i) as [|c l] eqn:Es; [congruence|]. assert (Hc : Kid g i c) by (apply succ_kid; rewrite Es; now left).
      destruct (real_child i n c Hn) with (2 := Hc) as (c' & K1 & K2); [destruct Hl as [-> | ->]; discriminate|]. exists c'. split; [rewrite <- Es; now apply succ_kid|exact K2]. }
    replace (m =? -1) with false by lia. cbn [raise_if bind app]. destruct (q_children gs (successors g i) LPeripheral Q) as (vs & Hvs & Hall).
    { intros c Hc. destruct (Hkids c Hc) as (nc & K1 & K2 & [K3|K3]); exists nc; rewrite K3; repeat split; auto; discriminate. }
    rewrite Hvs. cbn [bind app]. assert (Hx : exists xs, mapM as_irc vs = ([], Ok xs)).
    { clear Hvs. induction vs as [|v vs IH]; [exists []; reflexivity|]. destruct IH as (xs & IH); [intros; apply Hall; now right|]. assert (K := Hall v (or_introl eq_refl)). destruct v as [v|[v|v vl]|v]; try destruct K; cbn [mapM as_irc bind ret app]; rewrite IH; eexists; reflexivity. }
    destruct Hx as (xs & ->). cbn [bind app ret]. eexists. split; [reflexivity|exact H0].
  Qed.
  Lemma field_evcs i n kes : get_node g i = Some n -> KS i = map PaEvc kes ->
    exists es, Permutation es kes /\ Forall2 (fun c e => exists nc, get_node g c = Some nc /\ n_parsed nc = PaEvc e) (successors g i) es.
  Proof.
    intros Hn HK.
    destruct (v_kids _ _ _ _ V i) as (fams & P & F); [apply is_elem_node; eauto|]. rewrite HK in F at 2. revert F. generalize (KS i) at 1. intros sc F.
    assert (Hes : Forall2 (fun c e => exists nc, get_node g c = Some nc /\ n_parsed nc = PaEvc e) (concat fams) kes).
    { assert (Hun : forall e, In e kes -> sevc_derived e = None). { intros e He. assert (X : In (PaEvc e) (KS i)) by (rewrite HK; now apply in_map). destruct (v_prov _ _ _ _ V i n _ Hn X) as [[_ Y]|(x & Y & _ & Hk)]; [discriminate|]. apply (HEV (PaEvc e)); [|exact Logic.I]. apply (kids_declared ps x); [|exact Hk]. destruct Y as [->|[[Y _] _]]; [|exact Y]. destruct (Nat.eq_dec i 0) as [->|H0]; [|apply (v_node _ _ _ _ V _ _ H0 Hn)]. rewrite (v_root _ _ _ _ V) in Hn. injection Hn as <-. destruct Hk. }
      clear P HK. revert fams F. generalize kes Hun. clear. intros l. induction l as [|e l IH]; intros Hu fams F; inversion F as [|? fam ? fams' Hf F']; subst; cbn; [constructor|].
      assert (X : exists c nc, fam = [c] /\ get_node g c = Some nc /\ n_parsed nc = PaEvc e).
      { inversion Hf as [e0 c0 n0 Hn0 Hd Hpa|e0 c0 n0 HW|e0 e' c0 n0 Hn0 Hd Hpa HE|e0 c0 n0 v0 Hn0 Hd _ Hpa _ HE|e0 c0 n0 js vs0 tv0 Hn0 Hd _ Hpa _ HE _]; subst; try (exists c0, n0; auto; fail); try contradiction.
        - exists c0, n0. split; [reflexivity|]. split; [exact Hn0|]. rewrite Hpa. f_equal. destruct HE as [x _|x path eb x' Hd' _ _ _]; [reflexivity|]. rewrite (Hu x (or_introl eq_refl)) in Hd'. discriminate.
        - exfalso. assert (HD' : exists bv, Described (PaEvc e) bv vs0 (Some tv0)) by (inversion HE; subst; eauto). destruct HD' as (bv & HD'). exact (described_evc _ _ _ _ HD'). }
      destruct X as (c & nc & -> & Hc & Hpc). cbn. constructor; [eauto|]. apply IH; [intros; apply Hu; now right|exact F']. }
    assert (P' : Permutation (concat fams) (successors g i)) by (eapply Permutation_trans; [apply Permutation_sym; exact P|]; apply Permutation_sym, succ_perm).
    destruct (Forall2_perm _ _ _ P' _ Hes) as (es & F2 & P2). exists es. split; [now apply Permutation_sym|exact F2].
  Qed.
  Lemma evcs_ok gs i n f v : QI gs -> get_node g i = Some n -> i <> 0%nat -> n_level n = LField -> n_tmpl n = false -> n_processed n = Some (PrFld v) -> n_parsed n = PaFld f ->
    ok (finalize_evcs gs (fb_lsb (if_b v)) (fb_msb (if_b v)) (successors g i)).
  Proof.
    intros Q Hn H0 Hl Ht Hv Hp. destruct (HFN i n f v Hn H0 Ht Hp Hv) as (kes & HK & ics & F1 & HUs). destruct (field_evcs i n kes Hn HK) as (es & Pe & F2).
    destruct (Forall2_perm _ _ _ (Permutation_sym Pe) _ F1) as (ics' & F3 & P3).
    assert (Hm : exists w, mapM (fun i => match get_node gs i with Some n => match n_parsed n with PaEvc e => create_evc e (fb_lsb (if_b v)) (fb_msb (if_b v)) | _ => raise AttributeError "enumerated_values" end | None => raise AttributeError "parsed" end) (successors g i) = (w, Ok ics')).
    { clear - Q F2 F3. revert ics' F3. induction F2 as [|c e cs es (nc & Hc & Hpc) F2 IH]; intros ics F3; inversion F3 as [|? ic ? ics0 (w & Hw) F3']; subst; cbn [mapM]; [eexists; reflexivity|].
      destruct (q_node _ Q _ _ Hc) as (w0 & Hg & _). rewrite Hg. cbn [n_parsed with_val]. rewrite Hpc, Hw. destruct (IH _ F3') as (w' & Hw'). cbn [bind]. rewrite Hw'. eexists. reflexivity. }
    destruct Hm as (w & Hm). unfold finalize_evcs. apply ok_bind; [eexists; eexists; exact Hm|]. intros ws a Ea. rewrite Hm in Ea. injection Ea as _ <-.
    assert (HU' : usages_ok (map ievc_usage ics')) by (eapply usages_perm; [apply Permutation_map; exact P3|exact HUs]). cbv zeta.
    assert (Hlen : length ics' = length (map ievc_usage ics')) by (now rewrite map_length). rewrite Hlen. destruct HU' as [-> |[(u & ->)|[-> | ->]]]; cbn; eexists; eexists; reflexivity.
  Qed.
  Lemma visit_ok gs res i n : QI gs -> get_node g i = Some n -> exists ws gs' res', visit g (gs, res) i = (ws, Ok (gs', res')) /\ QI gs' /\ (res <> None -> res' <> None) /\ (i = 0%nat -> successors g 0 <> [] -> res' <> None).
  Proof.
    intros Q Hn. unfold visit. destruct (successors g i) as [|c0 cs0] eqn:Es; [exists [], gs, res; split; [reflexivity|]; split; [exact Q|]; split; [auto|]; intros -> X; congruence|]. rewrite <- Es. assert (Hne : successors g i <> []) by congruence.
    destruct (q_node _ Q _ _ Hn) as (w & Hg & _). unfold finalize_node. rewrite Hg. cbn [n_tmpl n_level with_val].
    destruct (Nat.eq_dec i 0) as [->|H0].
    - rewrite (v_root _ _ _ _ V) in Hn. injection Hn as <-. cbn [n_tmpl n_level root_node]. assert (Hr := v_root _ _ _ _ V). destruct (q_children gs (successors g 0) LDevice Q) as (vs & Hvs & Hall).
      { intros c Hc. apply succ_kid in Hc. destruct (kid_kind _ _ c Hr Hc) as (nc & K1 & K2 & K3). exists nc. split; [exact K1|]. split; [exact K2|]. split; [intros X; rewrite X in K3; exact K3|exact K3]. }
      rewrite Hvs. cbn [bind]. assert (Hx : exists xs, mapM as_per vs = ([], Ok xs)).
      { clear Hvs. induction vs as [|v vs IH]; [exists []; reflexivity|]. destruct IH as (xs & IH); [intros; apply Hall; now right|]. assert (K := Hall v (or_introl eq_refl)). destruct v as [v|[v|v vl]|v]; try destruct K; cbn [mapM as_per bind ret app]; rewrite IH; eexists; reflexivity. }
      destruct Hx as (xs & ->). cbn [bind app ret]. eexists _, _, _. split; [reflexivity|]. split; [exact Q|]. split; intros; discriminate.
    - assert (Hdev : n_level n <> LDevice) by (intros X; apply H0; exact (only_root (loose ps) g KS i n I Hn X)).
      destruct (n_tmpl n) eqn:Ht; [exists [], gs, res; split; [reflexivity|]; split; [exact Q|]; split; [auto|congruence]|].
      assert (Hle : n_level n <> LEnum). { intros X. assert (Hc : Kid g i c0) by (apply succ_kid; rewrite Es; now left). destruct (kid_kind i n c0 Hn Hc) as (nc & _ & _ & K). rewrite X in K. exact K. }
      destruct (q_value gs i n Q H0 Hn Hle) as (v & o & Hv & Ho & Hk & Hb & Hnn). rewrite Ho. cbn [bind].
      assert (Hlev := proj1 (v_node _ _ _ _ V _ _ H0 Hn)).
      destruct (n_level n) eqn:El; try congruence.
      + destruct (rcs_ok gs i n Q Hn) as (r & Hr & Hr0); [rewrite El; now left|exact Hne|]. rewrite Hr. cbn [bind]. destruct o as [o|[o|o ol]|o]; try discriminate. eexists _, _, _. split; [reflexivity|].
        split; [|split; [auto|congruence]]. apply (qi_set gs i n _ v Q H0 Hn); try (rewrite El; discriminate); auto. intros s Hs. cbn in Hs. injection Hs as <-. exact Hr0.
      + destruct (rcs_ok gs i n Q Hn) as (r & Hr & Hr0); [rewrite El; now right|exact Hne|]. rewrite Hr. cbn [bind]. destruct o as [o|[o|o ol]|o]; try discriminate. eexists _, _, _. split; [reflexivity|].
        split; [|split; [auto|congruence]]. apply (qi_set gs i n _ v Q H0 Hn); try (rewrite El; discriminate); auto. intros s Hs. cbn in Hs. injection Hs as <-. exact Hr0.
      + destruct (q_children gs (successors g i) LRegister Q) as (vs & Hvs & Hall).
        { intros c Hc. apply succ_kid in Hc. destruct (kid_kind _ _ c Hn Hc) as (nc & K1 & K2 & K3). rewrite El in K3. exists nc. split; [exact K1|]. split; [exact K2|]. split; [intros X; rewrite X in K3; exact K3|exact K3]. }
        rewrite Hvs. cbn [bind]. assert (Hx : exists xs, mapM as_fld vs = ([], Ok xs)).
        { clear Hvs. induction vs as [|v1 vs IH]; [exists []; reflexivity|]. destruct IH as (xs & IH); [intros; apply Hall; now right|]. assert (K := Hall v1 (or_introl eq_refl)). destruct v1 as [v1|[v1|v1 vl]|v1]; try destruct K; cbn [mapM as_fld bind ret app]; rewrite IH; eexists; reflexivity. }
        destruct Hx as (xs & ->). cbn [bind]. destruct o as [o|[o|o ol]|o]; try discriminate. eexists _, _, _. split; [reflexivity|]. split; [|split; [auto|congruence]].
        apply (qi_set gs i n _ v Q H0 Hn); try (rewrite El; discriminate); auto.
      + destruct o as [o|[o|o ol]|o]; try discriminate. assert (Hpf : exists f, n_parsed n = PaFld f) by (destruct (n_parsed n) as [|?|[?|? ?]|f|?]; try discriminate; eauto). destruct Hpf as (f & Hpf).
        destruct v as [v|[v|v vl]|v]; try discriminate. cbn in Hb. injection Hb as Hb1 Hb2. rewrite Hb1, Hb2.
        destruct (evcs_ok gs i n f v Q Hn H0 El Ht Hv Hpf) as (w1 & cs & Hcs). rewrite Hcs. cbn [bind]. eexists _, _, _. split; [reflexivity|]. split; [|split; [auto|congruence]].
        apply (qi_set gs i n _ (PrFld v) Q H0 Hn); try (rewrite El; discriminate); auto; cbn; now rewrite Hb1, Hb2.
  Qed.
  Lemma pass_ok : successors g 0 <> [] -> exists ws gs l, bottom_up_traversal g = (ws, Ok (gs, Some l)).
  Proof.
    intros Hne. destruct (bottom_up_traversal_order g Wf) as (order & P & _ & -> & _).
    assert (K : forall l gs res, QI gs -> (forall i, In i l -> exists n, get_node g i = Some n) -> (In 0%nat l \/ res <> None) -> exists ws gs' res', foldM (visit g) (gs, res) l = (ws, Ok (gs', res')) /\ res' <> None).
    { induction l as [|i l IH]; intros gs res Q Hin Hr; cbn [foldM]; [destruct Hr as [[]|Hr]; eexists _, _, _; split; [reflexivity|exact Hr]|].
      destruct (Hin i (or_introl eq_refl)) as (n & Hn). destruct (visit_ok gs res i n Q Hn) as (w & gs1 & res1 & Hv & Q1 & R1 & R2). rewrite Hv. cbn [bind].
      destruct (IH gs1 res1 Q1 (fun j Hj => Hin j (or_intror Hj))) as (w2 & gs2 & res2 & H2 & H3).
      - destruct Hr as [[->|Hr]|Hr]; auto.
      - rewrite H2. eexists _, _, _. split; [reflexivity|exact H3]. }
    destruct (K order g None qi_start) as (ws & gs & res & H1 & H2).
    - intros i Hi. assert (X : In i (node_indices g)) by (eapply Permutation_in; eassumption). apply node_indices_In in X. destruct (get_slot g i) as [[n|path]|] eqn:Eg; [exists n; now apply get_node_slot| |congruence].
      assert (Y : In i (g_phs g)) by (apply (wf_phs _ Wf); eauto). rewrite HPh in Y. destruct Y.
    - left. eapply Permutation_in; [apply Permutation_sym; exact P|]. apply node_indices_In. assert (X := v_root _ _ _ _ V). apply get_node_slot in X. congruence.
    - destruct res as [l|]; [|congruence]. exists ws, gs, l. exact H1.
  Qed.
  Lemma pass_start p ps' : ps = p :: ps' -> KS 0%nat = map PaPer ps -> successors g 0 <> [].
  Proof.
    intros Eps HK. destruct (v_kids _ _ _ _ V 0%nat) as (fams & P & F); [apply is_elem_node; eexists; apply (v_root _ _ _ _ V)|].
    rewrite HK, Eps in F. cbn [map] in F. destruct fams as [|fam fams']; [inversion F|].
    assert (Hc : exists c, In c fam) by (inversion F as [|? fam0 ? fams0 Hf F']; subst; destruct Hf; eexists; now left). destruct Hc as (c & Hc). assert (X : In c (successors g 0)); [|intros Y; rewrite Y in X; exact X].
    apply succ_kid. unfold Kid. eapply Permutation_in; [apply Permutation_sym; exact P|]. cbn. apply in_or_app. now left.
  Qed.
  Lemma pass_accepts fuel w0 g0 w1 : ps <> [] -> KS 0%nat = map PaPer ps -> initialization ps = (w0, Ok g0) -> rounds fuel g0 [] = (w1, Ok g) -> exists ws l, resolve_peripherals fuel ps = (ws, Ok l).
  Proof.
    intros Hne HK E0 E1. assert (Eps : exists p ps', ps = p :: ps') by (clear - Hne; destruct ps; [congruence|eauto]). destruct Eps as (p & ps' & Eps). assert (Hs := pass_start p ps' Eps HK). destruct (pass_ok Hs) as (w2 & gs & l & E2).
    assert (Hun : unprocessed_nodes g = []).
    { unfold unprocessed_nodes. destruct (filter (unprocessed g) (node_indices g)) as [|i r] eqn:Ef; [reflexivity|]. assert (X : In i (filter (unprocessed g) (node_indices g))) by (rewrite Ef; now left).
      apply filter_In in X as [_ X]. unfold unprocessed in X. destruct (get_node g i) as [n|] eqn:En; [|discriminate]. rewrite (Done _ _ En) in X. discriminate. }
    unfold resolve_peripherals. rewrite E0. cbn [bind]. rewrite E1. cbn [bind]. rewrite Hun. cbn [bind ret]. rewrite E2. cbn. eexists _, l. reflexivity.
  Qed.
End Pass.

Theorem accepted ps : ps <> [] -> (forall e, Declared ps e -> level_of e <> LPeripheral -> derived_of e = None) -> (forall p, In p ps -> Grounded ps p) ->
  (forall e, Declared ps e -> level_of e <> LPeripheral -> ~ is_evc e -> LocalOk e None) ->
  (forall p bv, In p ps -> (forall m, DimVia ps p m -> eff_dim (PaPer p) bv = Some m) -> LocalOk (PaPer p) bv) ->
  (forall e s, Declared ps e -> declared_size e = Some s -> 0 <= s) ->
  (forall f vs tv v, Declared ps (PaFld f) -> Described (PaFld f) None vs tv -> In (PrFld v) vs -> EvcsOk (sf_evcs f) (fb_lsb (if_b v)) (fb_msb (if_b v))) ->
  exists fuel ws l, resolve_peripherals fuel ps = (ws, Ok l).
Proof.
  intros Hne HU HG HL HLP HZ HF. destruct (initialization_ok ps) as [(w0 & g0 & E0) _]. destruct (first_round ps HU HG w0 g0 E0) as (KS & R0 & HK0). destruct (start_initialization ps w0 g0 E0) as (KS0 & (I0 & _)).
  destruct (rounds_terminate ps (no_cluster_bases ps HU) _ g0 KS0 [] eq_refl I0) as (fuel & Hfuel).
  destruct (rounds_ok ps HU HG HL HLP fuel g0 KS [] R0) as [K|(w1 & g & E1)]; [intros i []|contradiction|].
  destruct (rounds_done ps HU HG HL HLP fuel g0 KS [] w1 g R0 E1) as (KS' & A & HK & Hdone).
  assert (I := ri_iv _ _ _ _ A). exists fuel. refine (pass_accepts ps _ HZ g KS' I (ri_sh _ _ _ _ A) (ri_phs _ _ _ _ A) _ Hdone _ fuel w0 g0 w1 Hne (eq_trans HK HK0) E0 E1).
  - intros e De Hev. apply HU; [exact De|]. destruct e; try destruct Hev. discriminate.
  - intros a b K. destruct (ri_der _ _ _ _ A a b K) as ([] & _).
  - intros i n f v Hn H0 Ht Hp Hv. assert (V := proj1 (proj2 I)). destruct (v_node _ _ _ _ V _ _ H0 Hn) as (L1 & L2 & _ & L4). destruct (L4 (Hdone _ _ Hn)) as [(e0 & e' & K & _)|[_ (sc & vs & tv & v' & K1 & K2 & K3 & _)]]; [congruence|].
    rewrite Hv in K2. injection K2 as <-. rewrite Ht in K3. rewrite Hp in K1, L2. cbn in K1. assert (X : KS' i = map PaEvc (sf_evcs f) /\ Described (PaFld f) None vs tv).
    { assert (Hd : derived_of (PaFld f) = None) by (apply HU; [exact L2|discriminate]). inversion K1 as [e1 vs1 tv1 _ D|e1 path eb kb vsb tvb bv vs1 tv1 Hd']; subst; [auto|congruence]. }
    exists (sf_evcs f). split; [apply X|]. exact (HF f vs tv v L2 (proj2 X) K3).
Qed.
