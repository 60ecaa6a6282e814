(** * ResolveInv: a node-wise invariant principle for the resolver.
    Every node that ever exists in the resolver's graph is created by the graph builder, is a copy of another node, or
    is the result of processing/finalizing a node.  [resolve_nodes] turns closure under these steps into a statement about
    the resolved peripherals. *)
From Verif Require Import Base PyStr PyInt Types DimModel EnumModel ElemModel ResolveModel GraphFacts ReplicateFacts SpecSearch SearchFacts ResolveWF.

Lemma get_slot_add g n g' i : add_node g n = (g', i) -> forall j s, get_slot g' j = Some s -> s = n /\ j = i \/ get_slot g j = Some s.
Proof.
  unfold add_node. destruct (g_free g) as [|k fr]; intros H; injection H as <- <-; intros j s; unfold get_slot; cbn [g_slots].
  - intros Hj. destruct (Nat.lt_ge_cases j (length (g_slots g))) as [Hl|Hl].
    + rewrite app_nth1 in Hj by assumption. auto.
    + rewrite app_nth2 in Hj by assumption. destruct (j - length (g_slots g))%nat as [|[|k]] eqn:Ek; cbn in Hj; try discriminate.
      injection Hj as <-. left. split; [reflexivity|lia].
  - rewrite nth_set_nth. destruct (Nat.eqb_spec k j); cbn [andb]; auto. destruct (_ <? _)%nat; auto.
    intros H; injection H as <-. auto.
Qed.

(** ** the closure conditions *)
(** where the value of the base of a processed element comes from *)
Definition BaseOk (P : node -> Prop) (n : node) (bv : option processed) : Prop :=
  derived_of (n_parsed n) = None /\ bv = None \/
  exists path nb v, derived_of (n_parsed n) = Some path /\ P nb /\ n_level nb = n_level n /\ n_processed nb = Some v /\ bv = Some v.

Definition redone (n : node) (v : processed) (tmpl : bool) : node := mk_node (n_name n) (n_level n) true (n_parsed n) (Some v) tmpl.
Definition refined (n : node) (v : processed) : node := mk_node (n_name n) (n_level n) (n_done n) (n_parsed n) (Some v) (n_tmpl n).

(** the containers of a field after finalization *)
Definition usages_ok (us : list enum_usage) : Prop := us = [] \/ (exists u, us = [u]) \/ us = [U_READ; U_WRITE] \/ us = [U_WRITE; U_READ].

(** [D]: the elements of the description *)
Record Closed (D : parsed -> Prop) (P : node -> Prop) : Prop := {
  dn_per : forall p x, D (PaPer p) -> In x (sp_rcs p) -> D (PaRc x);
  dn_clu : forall c l x, D (PaRc (SClu c l)) -> In x l -> D (PaRc x);
  dn_reg : forall r f, D (PaRc (SReg r)) -> In f (sr_fields r) -> D (PaFld f);
  dn_fld : forall f e, D (PaFld f) -> In e (sf_evcs f) -> D (PaEvc e);
  cl_root : P (mk_node (Some "Device"%string) LDevice true PaDev None false);
  cl_per : forall p, D (PaPer p) -> P (mk_node (Some (sp_name p)) LPeripheral false (PaPer p) None false);
  cl_reg : forall r, D (PaRc (SReg r)) -> P (mk_node (Some (sr_name r)) LRegister false (PaRc (SReg r)) None false);
  cl_clu : forall c l, D (PaRc (SClu c l)) -> P (mk_node (Some (sc_name c)) LCluster false (PaRc (SClu c l)) None false);
  cl_fld : forall f, D (PaFld f) -> P (mk_node (Some (sf_name f)) LField false (PaFld f) None false);
  cl_evc : forall e, D (PaEvc e) -> P (mk_node (sevc_name e) LEnum false (PaEvc e) None false);
  (* processing an element without / with dim *)
  cl_plain : forall n bv w names displays w' v vs, P n -> n_processed n = None -> (forall e, n_parsed n <> PaEvc e) -> BaseOk P n bv ->
    node_dimension (n_parsed n) bv = (w, Ok (false, names, displays)) ->
    create_elements 0 names displays (n_parsed n) bv = (w', Ok (v :: vs)) -> P (redone n v (n_tmpl n));
  cl_tmpl : forall n bv w names displays w' v vs, P n -> n_processed n = None -> (forall e, n_parsed n <> PaEvc e) -> BaseOk P n bv ->
    node_dimension (n_parsed n) bv = (w, Ok (true, names, displays)) ->
    create_elements 0 names displays (n_parsed n) bv = (w', Ok (v :: vs)) -> P (redone n (with_name (parsed_name (n_parsed n)) v) true);
  cl_inst : forall n bv w names displays w' vs v, P n -> n_processed n = None -> (forall e, n_parsed n <> PaEvc e) -> BaseOk P n bv ->
    node_dimension (n_parsed n) bv = (w, Ok (true, names, displays)) ->
    create_elements 0 names displays (n_parsed n) bv = (w', Ok vs) -> In v vs ->
    P (mk_node (Some (processed_name (without_dim v))) (n_level n) true (n_parsed n) (Some (without_dim v)) false);
  (* enumerated value containers: the description of the base replaces the own one *)
  cl_enum : forall n e, P n -> n_parsed n = PaEvc e -> derived_of (PaEvc e) = None ->
    P (mk_node (n_name n) (n_level n) true (n_parsed n) (n_processed n) (n_tmpl n));
  cl_enum_base : forall n nb e e', P n -> P nb -> n_parsed n = PaEvc e -> n_parsed nb = PaEvc e' -> derived_of (PaEvc e) <> None -> n_level n = n_level nb ->
    P (mk_node (n_name n) (n_level n) true (n_parsed nb) (n_processed n) (n_tmpl n))
    /\ P (mk_node (n_name n) (n_level n) (n_done n) (n_parsed nb) (n_processed n) (n_tmpl n));
  (* finalization *)
  cl_fin_fld : forall n f cs, P n -> n_tmpl n = false -> n_level n = LField -> n_processed n = Some (PrFld f) ->
    usages_ok (map ievc_usage cs) ->
    (forall c, In c cs -> exists m e w, P m /\ n_parsed m = PaEvc e /\ create_evc e (fb_lsb (if_b f)) (fb_msb (if_b f)) = (w, Ok c)) ->
    P (refined n (PrFld (mk_ifield (if_b f) (if_dim f) (if_access f) cs)));
  cl_fin_reg : forall n r fs, P n -> n_tmpl n = false -> n_level n = LRegister -> n_processed n = Some (PrRc (IReg r)) ->
    StronglySorted (leP ifield_le) fs ->
    (forall f, In f fs -> exists m, P m /\ n_tmpl m = false /\ n_processed m = Some (PrFld f)) ->
    P (refined n (PrRc (IReg (mk_ireg (ir_b r) (ir_dim r) (ir_props r) fs))));
  cl_fin_clu : forall n c l s xs, P n -> n_tmpl n = false -> n_level n = LCluster -> n_processed n = Some (PrRc (IClu c l)) ->
    StronglySorted (leP irc_le) xs ->
    (forall x, In x xs -> exists m, P m /\ n_tmpl m = false /\ n_processed m = Some (PrRc x)) ->
    P (refined n (PrRc (IClu (mk_iclu (ic_b c) (ic_dim c) (with_size s (ic_props c))) xs)));
  cl_fin_per : forall n p s xs, P n -> n_tmpl n = false -> n_level n = LPeripheral -> n_processed n = Some (PrPer p) ->
    StronglySorted (leP irc_le) xs -> 0 <= s ->
    (forall x, In x xs -> exists m, P m /\ n_tmpl m = false /\ n_processed m = Some (PrRc x)) ->
    P (refined n (PrPer (mk_iper (ip_b p) (ip_dim p) (with_size s (ip_props p)) xs))) }.

Section Inv.
  Context (D : parsed -> Prop) (P : node -> Prop) (C : Closed D P).

  Definition NI (g : graph) : Prop := forall i n, get_node g i = Some n -> P n.

  Lemma NI_slots g g' : g_slots g = g_slots g' -> NI g -> NI g'.
  Proof. intros H HI i n. rewrite <- (get_node_slots _ _ i H). apply HI. Qed.

  Lemma NI_add g n g' i : add_node g n = (g', i) -> (forall m, n = NElem m -> P m) -> NI g -> NI g'.
  Proof.
    intros H Hn HI j m Hj. apply get_node_slot in Hj. destruct (get_slot_add _ _ _ _ H _ _ Hj) as [[<- _]|Hs]; auto.
    apply get_node_slot in Hs. eauto.
  Qed.

  Lemma NI_set g i n : P n -> NI g -> NI (set_node g i n).
  Proof.
    intros Hn HI j m Hj. apply get_node_slot in Hj. rewrite get_slot_set in Hj. destruct (_ && _).
    - injection Hj as <-. exact Hn.
    - apply get_node_slot in Hj. eauto.
  Qed.

  Lemma NI_add_edge g p c t ws g' : add_edge_m g p c t = (ws, Ok g') -> NI g -> NI g'.
  Proof.
    unfold add_edge_m, add_edge. destruct (reaches g c p); intros H; minv. apply NI_slots. reflexivity.
  Qed.
  Lemma add_edge_slots g p c t ws g' : add_edge_m g p c t = (ws, Ok g') -> g_slots g' = g_slots g.
  Proof. unfold add_edge_m, add_edge. destruct (reaches g c p); intros H; minv. reflexivity. Qed.

  Lemma NI_remove_ph g i : NI g -> NI (remove_placeholder g i).
  Proof.
    intros HI j m Hj. apply get_node_slot in Hj. unfold get_slot, remove_placeholder in Hj; cbn [g_slots] in Hj.
    rewrite nth_set_nth in Hj. destruct (_ && _); [discriminate|]. apply (HI j). apply get_node_slot. exact Hj.
  Qed.

  Lemma NI_child g p n t ws r : add_element_child g p n t = (ws, Ok r) -> P n -> NI g -> NI (fst r).
  Proof.
    unfold add_element_child. destruct (add_node g (NElem n)) as [g1 i] eqn:Ha. intros H Hn HI. minv. cbn [fst].
    eapply NI_add_edge; [eassumption|]. eapply NI_add; eauto. intros m E. now injection E as <-.
  Qed.

  Lemma NI_ph g path c ws g' : add_placeholder g path c = (ws, Ok g') -> NI g -> NI g'.
  Proof.
    unfold add_placeholder. destruct (add_node g (NPh path)) as [g1 i] eqn:Ha. intros H HI. minv.
    eapply NI_slots with (g := a); [reflexivity|]. eapply NI_add_edge; [eassumption|]. eapply NI_add; eauto. discriminate.
  Qed.

  Lemma NI_build g p t name lv pa der ws r : build_element g p t name lv pa der = (ws, Ok r) ->
    P (mk_node name lv false pa None false) -> NI g -> NI (fst r).
  Proof.
    unfold build_element. intros H Hn HI. minv. assert (HI' := NI_child _ _ _ _ _ _ Hm Hn HI).
    destruct der as [path|]; minv; auto. cbn [fst]. eapply NI_ph; eauto.
  Qed.

  Lemma NI_build_field p g f ws g' : D (PaFld f) -> build_field p g f = (ws, Ok g') -> NI g -> NI g'.
  Proof.
    unfold build_field. intros HD H HI. minv. eapply NI_build in Hm; [|now apply (cl_fld D P C)|exact HI].
    eapply (foldM_inv NI); [|exact Hm|exact Hk]. intros b x w b' Hb Hin Hx. unfold build_evc in Hx. minv.
    eapply NI_build; [eassumption|apply (cl_evc D P C); eapply (dn_fld D P C); eauto|exact Hb].
  Qed.

  Lemma NI_build_rc x : forall p g ws g', D (PaRc x) -> build_rc p g x = (ws, Ok g') -> NI g -> NI g'.
  Proof.
    induction x as [r|c l IH] using svd_rc_ind'; intros p g ws g' HD H HI; cbn [build_rc] in H; minv.
    - eapply NI_build in Hm; [|now apply (cl_reg D P C)|exact HI].
      eapply (foldM_inv NI); [|exact Hm|exact Hk]. intros b x w b' Hb Hin Hx. eapply NI_build_field; eauto. eapply (dn_reg D P C); eauto.
    - eapply NI_build in Hm; [|now apply (cl_clu D P C)|exact HI].
      eapply (foldM_inv NI); [|exact Hm|exact Hk]. intros b x w b' Hb Hin Hx. rewrite Forall_forall in IH. eapply IH; eauto. eapply (dn_clu D P C); eauto.
  Qed.

  Lemma NI_construct ps ws g : (forall p, In p ps -> D (PaPer p)) -> construct_graph ps = (ws, Ok g) -> NI g.
  Proof.
    intros HD. rewrite construct_eq. intros H.
    eapply (foldM_inv NI); [| |exact H].
    - intros b p w b' Hb Hp Hx. unfold build_per in Hx. minv. eapply NI_build in Hm; [|apply (cl_per D P C); auto|exact Hb].
      eapply (foldM_inv NI); [|exact Hm|exact Hk]. intros. eapply NI_build_rc; eauto. eapply (dn_per D P C); eauto.
    - intros i n Hn. destruct i as [|[|i]]; cbn in Hn; try discriminate. injection Hn as <-. apply (cl_root D P C).
  Qed.

  Lemma NI_init ps ws g : (forall p, In p ps -> D (PaPer p)) -> initialization ps = (ws, Ok g) -> NI g.
  Proof.
    unfold initialization. intros HD H. minv. apply NI_construct in Hm; [|exact HD]. eapply (foldM_inv NI); [|exact Hm|exact Hk].
    intros b x w b' Hb _ Hx. unfold link_placeholder in Hx. minv. destruct a0; minv; auto. eapply NI_add_edge; eauto.
  Qed.

  (** *** placeholders *)
  Lemma NI_resolve_ph g ph ws g' : resolve_placeholder g ph = (ws, Ok g') -> NI g -> NI g'.
  Proof.
    unfold resolve_placeholder. intros H HI. minv.
    match type of Hk with (if ?b then _ else _) = _ => destruct b end; minv; auto.
    destruct (get_slot g ph) as [[m|path]|]; minv. destruct (get_node g a0) as [n|]; minv.
    destruct a1 as [b|]; minv; auto. destruct (add_edge _ _ _ _) as [g1|] eqn:Ha; minv.
    unfold add_edge in Ha. destruct (reaches _ _ _); [discriminate|]. injection Ha as <-.
    eapply NI_slots with (g := remove_placeholder g ph); [reflexivity|]. now apply NI_remove_ph.
  Qed.
  Lemma NI_resolve_phs g ws g' : resolve_placeholders g = (ws, Ok g') -> NI g -> NI g'.
  Proof. unfold resolve_placeholders. intros H HI. eapply (foldM_inv NI); [|exact HI|exact H]. intros; eapply NI_resolve_ph; eauto. Qed.

  Lemma NI_replicated g b i g1 m : NI g -> Replicated g b i g1 m -> NI g1.
  Proof.
    intros HI R j n Hj. apply get_node_slot in Hj. destruct (rp_only _ _ _ _ _ R j) as [H|H]; [congruence| |].
    - destruct (get_slot g j) as [s|] eqn:E; [|congruence]. rewrite (rp_keeps _ _ _ _ _ R _ _ E) in Hj. injection Hj as ->.
      apply (HI j). now apply get_node_slot.
    - apply in_map_iff in H as ([k j'] & E & Hin). cbn in E. subst j'. destruct (rp_fresh _ _ _ _ _ R _ _ Hin) as [_ H]. rewrite Hj in H.
      apply (HI k). apply get_node_slot. congruence.
  Qed.
  Lemma NI_prepared g i base g1 : NI g -> Prepared g i base g1 -> NI g1.
  Proof.
    intros HI H. destruct base as [b|]; cbn in H; [|now subst]. destruct H as [m H]. eapply NI_replicated; [|exact H].
    eapply NI_slots; [|exact HI]. reflexivity.
  Qed.

  Lemma NI_update g i base v tmpl ws g' n : WF g -> NI g -> get_node g i = Some n -> update_node g i base v tmpl = (ws, Ok g') ->
    (n_processed n = None -> P (redone n v (tmpl || n_tmpl n))) -> NI g'.
  Proof.
    intros W HI Hn H HP j m Hj. destruct (update_node_spec _ _ _ _ _ _ _ _ W Hn H) as (g1 & HPr & Hnp & _ & Hs & _).
    apply get_node_slot in Hj. rewrite Hs in Hj. destruct (Nat.eqb i j).
    - injection Hj as <-. now apply HP.
    - apply (NI_prepared _ _ _ _ HI HPr j). now apply get_node_slot.
  Qed.

  Lemma NI_process g i ws g' : WF g -> NI g -> process_node g i = (ws, Ok g') -> NI g'.
  Proof.
    intros W HI H. apply process_node_inv in H as (n & base & bv & Hn & Hnd & HB & [(e & Hp & w & H)|(Hne & w & H)]).
    - assert (HPn := HI _ _ Hn). destruct (process_evc_spec _ _ _ _ _ _ W Hn H) as [(-> & _ & ->)|(b & nb & e' & g1 & -> & Hb & Hpb & (m & R) & _ & Hg1 & ->)].
      + apply NI_set; auto. apply (cl_enum D P C n e); auto. destruct HB as [[HB _]|(path & b & nb & _ & E & _)]; [|discriminate]. now rewrite <- Hp.
      + destruct HB as [[_ [E _]]|(path & b' & nb' & Hder & E & _ & Hb' & Hlv & _)]; [discriminate|]. injection E as <-. replace nb' with nb in * by congruence.
        destruct (cl_enum_base D P C n nb e e') as [H1 H2]; auto; [now apply (HI b)|congruence|]. apply NI_set; auto.
        eapply NI_replicated; [|exact R]. eapply NI_slots with (g := set_node g i _); [reflexivity|]. now apply NI_set.
    - assert (HPn := HI _ _ Hn).
      assert (HBk : BaseOk P n bv).
      { destruct HB as [(H1 & _ & H2)|(path & b & nb & H1 & _ & _ & Hb & Hlv & Hbv & Hx)]; [now left|]. right.
        destruct (n_processed nb) as [v|] eqn:Ev; [|destruct (Hx Hbv) as [e He]; now apply Hne in He].
        exists path, nb, v. conj; auto. now apply (HI b). }
      apply process_dimable_inv in H as (w1 & is_dim & names & displays & w' & v & vs & Hd & Hc & w'' & H). destruct is_dim.
      + destruct (update_dim_node_spec _ _ _ _ _ _ _ _ W Hn H) as (g1 & xs & (wu & Hu) & _ & _ & _ & Hm & _ & Hx & Ho & _).
        assert (Hnp : n_processed n = None) by (destruct (update_node_spec _ _ _ _ _ _ _ _ W Hn Hu) as (g0 & _ & Hnp & _); exact Hnp).
        assert (HI1 : NI g1).
        { eapply NI_update; eauto. intros _. cbn [orb]. eapply (cl_tmpl D P C); eauto. }
        intros j mm Hj. apply get_node_slot in Hj. destruct (in_dec Nat.eq_dec j (map i_idx xs)) as [Hin|Hin].
        * apply in_map_iff in Hin as (x & <- & Hin). destruct (Hx _ Hin) as [_ E]. rewrite E in Hj. injection Hj as <-.
          assert (Hv : In (i_par x, i_val x) (list_prod (get_element_parents g1 i) (map without_dim (v :: vs)))) by (rewrite <- Hm; now apply (in_map (fun x => (i_par x, i_val x))) in Hin).
          apply in_prod_iff in Hv as [_ Hv]. apply in_map_iff in Hv as (v0 & <- & Hv0). unfold inst_node. eapply (cl_inst D P C); eauto.
        * rewrite Ho in Hj by exact Hin. apply (HI1 j). now apply get_node_slot.
      + eapply NI_update; eauto. intros Hnp. cbn [orb]. eapply (cl_plain D P C); eauto.
  Qed.

  Lemma NI_rounds fuel : forall g prev ws g', WF g -> NI g -> rounds fuel g prev = (ws, Ok g') -> WF g' /\ NI g'.
  Proof.
    induction fuel as [|f IH]; intros g prev ws g' W HI H; cbn [rounds] in H; [minv|]. apply bind_ok in H as (w1 & g1 & w2 & H1 & H & ->).
    assert (HI1 := NI_resolve_phs _ _ _ H1 HI). apply resolve_phs_spec in H1 as (W1 & _); auto.
    destruct (topological_sorted g1 (find_processable g1)) as [|x l] eqn:Et; [minv; auto|].
    apply bind_ok in H as (w3 & u & w4 & _ & H & ->). apply bind_ok in H as (w5 & g2 & w6 & H2 & H & ->).
    assert (X : WF g2 /\ NI g2).
    { eapply (foldM_inv (fun g => WF g /\ NI g)); [|split; [exact W1|exact HI1]|exact H2]. intros b y w b' [Wb Hb] _ Hy.
      split; [eapply process_node_WF; eauto|eapply NI_process; eauto]. }
    destruct X. eapply IH; eauto.
  Qed.

  (** *** finalization *)
  Lemma NI_set_processed g i v n : NI g -> get_node g i = Some n -> P (refined n v) -> NI (set_processed g i v).
  Proof. intros HI Hn HP. unfold set_processed. rewrite Hn. now apply NI_set. Qed.
  Lemma node_processed_ok g i ws v : node_processed g i = (ws, Ok v) -> exists n, get_node g i = Some n /\ n_processed n = Some v.
  Proof.
    unfold node_processed. destruct (get_node g i) as [n|]; intros H; minv. destruct (n_processed n) as [x|] eqn:E; minv. eauto.
  Qed.
  Lemma processed_children_ok g cs ws vs : processed_children g cs = (ws, Ok vs) -> forall v, In v vs ->
    exists c n, In c cs /\ get_node g c = Some n /\ n_tmpl n = false /\ n_processed n = Some v.
  Proof.
    unfold processed_children. intros H v Hv. destruct (mapM_ok_In _ _ _ _ H v Hv) as (c & w & Hc & Hp). apply filter_In in Hc as [Hc Ht].
    destruct (is_elem g c); minv. apply node_processed_ok in Hp as (n & Hn & Hp). exists c, n. conj; auto. unfold is_tmpl in Ht. rewrite Hn in Ht.
    now apply negb_true_iff.
  Qed.
  Lemma children_as {A} (as_ : processed -> M A) (mk : A -> processed) g cs ws vs w xs : NI g ->
    (forall v w a, as_ v = (w, Ok a) -> v = mk a) ->
    processed_children g cs = (ws, Ok vs) -> mapM as_ vs = (w, Ok xs) ->
    forall x, In x xs -> exists m, P m /\ n_tmpl m = false /\ n_processed m = Some (mk x).
  Proof.
    intros HI Has Hp Hm x Hx. destruct (mapM_ok_In _ _ _ _ Hm x Hx) as (v & w' & Hv & Ha). apply Has in Ha. subst v.
    destruct (processed_children_ok _ _ _ _ Hp _ Hv) as (c & n & _ & Hn & Ht & Hpr). exists n. conj; auto. now apply (HI c).
  Qed.
  Lemma as_irc_ok v w x : as_irc v = (w, Ok x) -> v = PrRc x. Proof. destruct v; cbn; intros H; minv; congruence. Qed.
  Lemma as_fld_ok v w x : as_fld v = (w, Ok x) -> v = PrFld x. Proof. destruct v; cbn; intros H; minv; congruence. Qed.
  Lemma as_per_ok v w x : as_per v = (w, Ok x) -> v = PrPer x. Proof. destruct v; cbn; intros H; minv; congruence. Qed.
  Lemma zs_sorted {A} (k : A -> Z * string) l : StronglySorted (leP (fun x y => zs_le (k x) (k y))) (isort (fun x y => zs_le (k x) (k y)) l).
  Proof.
    assert (Hc := pair_cmp_is _ _ Z_cmp_is str_cmp_is). apply isort_sorted.
    - intros x y. apply (cmp_le_total _ Hc).
    - intros x y z. apply (cmp_le_trans _ Hc).
  Qed.
  Lemma calculate_size_nn g cs ws s : calculate_size g cs = (ws, Ok s) -> 0 <= s.
  Proof.
    unfold calculate_size. intros H. apply bind_ok in H as (w1 & m & w2 & H & H' & _). apply bind_ok in H' as (w3 & u & w4 & Hr & H' & _). apply ret_ok in H' as [<- _].
    assert (-1 <= m). { refine (foldM_inv (fun m => -1 <= m) _ _ _ _ _ _ _ H); [|lia]. intros b x w b' Hb _ Hx. apply bind_ok in Hx as (? & v & ? & _ & Hx & _). destruct v as [p|y|f]; try solve [minv]. destruct (is_tmpl g x); [apply ret_ok in Hx as [<- _]; exact Hb|]. apply bind_ok in Hx as (? & z & ? & _ & Hx & _). apply ret_ok in Hx as [<- _]. destruct (Z.ltb_spec b z); lia. }
    unfold raise_if in Hr. destruct (Z.eqb_spec m (-1)); [discriminate|lia].
  Qed.
  Lemma finalize_rcs_ok g cs ws r : NI g -> finalize_rcs g cs = (ws, Ok r) -> (StronglySorted (leP irc_le) (snd r) /\ 0 <= fst r) /\
    forall x, In x (snd r) -> exists m, P m /\ n_tmpl m = false /\ n_processed m = Some (PrRc x).
  Proof.
    intros HI H. unfold finalize_rcs in H. minv. cbn [fst snd]. split; [split; [apply zs_sorted|eapply calculate_size_nn; eauto]|]. intros x Hx. apply isort_in in Hx.
    eapply (children_as as_irc PrRc); eauto. intros. eapply as_irc_ok; eauto.
  Qed.
  Lemma finalize_evcs_ok g lsb msb cs ws l : NI g -> finalize_evcs g lsb msb cs = (ws, Ok l) -> usages_ok (map ievc_usage l) /\
    forall c, In c l -> exists m e w, P m /\ n_parsed m = PaEvc e /\ create_evc e lsb msb = (w, Ok c).
  Proof.
    intros HI H. unfold finalize_evcs in H. minv. split.
    - unfold usages_ok. destruct l as [|c1 [|c2 [|c3 l]]]; cbn in *; [auto|right; left; eauto| |discriminate].
      right. right. destruct (ievc_usage c1), (ievc_usage c2); cbn in *; try discriminate; auto.
    - intros c Hc. destruct (mapM_ok_In _ _ _ _ Hm c Hc) as (i & w & _ & Hi). destruct (get_node g i) as [n|] eqn:Hn; minv.
      destruct (n_parsed n) as [| | | |e] eqn:Hp; minv. exists n, e, w. conj; auto. now apply (HI i).
  Qed.

  Definition res_ok (res : option (list iper)) : Prop := forall l, res = Some l -> StronglySorted (leP iper_le) l /\
    forall p, In p l -> exists m, P m /\ n_tmpl m = false /\ n_processed m = Some (PrPer p).
  Lemma NI_finalize st i cs ws st' : NI (fst st) -> res_ok (snd st) -> finalize_node st i cs = (ws, Ok st') -> NI (fst st') /\ res_ok (snd st').
  Proof.
    destruct st as [g res]. cbn [fst snd]. intros HI HR H. unfold finalize_node in H. destruct (get_node g i) as [n|] eqn:Hn; [|minv].
    assert (HPn := HI _ _ Hn). destruct (n_tmpl n) eqn:Ht; [minv; auto|]. destruct (n_level n) eqn:Hl.
    - minv. cbn [fst snd]. split; [exact HI|]. intros l E. injection E as <-. split; [apply zs_sorted|]. intros p Hp. apply isort_in in Hp.
      eapply (children_as as_per PrPer); eauto. intros. eapply as_per_ok; eauto.
    - minv. apply finalize_rcs_ok in Hm0 as [[Hs Hz] Hx]; auto. apply node_processed_ok in Hm as (n' & Hn' & Hp). replace n' with n in * by congruence.
      destruct a as [p|x|f]; minv. cbn [fst snd]. split; [|exact HR]. eapply NI_set_processed; eauto. apply (cl_fin_per D P C); auto.
    - minv. apply finalize_rcs_ok in Hm0 as [[Hs Hz] Hx]; auto. apply node_processed_ok in Hm as (n' & Hn' & Hp). replace n' with n in * by congruence.
      destruct a as [p|[r|c l]|f]; minv. cbn [fst snd]. split; [|exact HR]. eapply NI_set_processed; eauto. eapply (cl_fin_clu D P C); eauto.
    - minv. apply node_processed_ok in Hm as (n' & Hn' & Hp). replace n' with n in * by congruence.
      destruct a as [p|[r|c l]|f]; minv. cbn [fst snd]. split; [|exact HR]. eapply NI_set_processed; eauto. eapply (cl_fin_reg D P C); eauto.
      + apply zs_sorted.
      + intros x Hx. apply isort_in in Hx. eapply (children_as as_fld PrFld); eauto. intros. eapply as_fld_ok; eauto.
    - minv. apply node_processed_ok in Hm as (n' & Hn' & Hp). replace n' with n in * by congruence.
      destruct a as [p|[r|c l]|f]; minv. apply finalize_evcs_ok in Hm as [Hu Hc]; auto. cbn [fst snd]. split; [|exact HR].
      eapply NI_set_processed; eauto. eapply (cl_fin_fld D P C); eauto.
    - minv.
  Qed.
  Lemma NI_bottom_up g0 fuel : forall pending queue st ws st', NI (fst st) -> res_ok (snd st) ->
    bottom_up g0 fuel pending queue st = (ws, Ok st') -> NI (fst st') /\ res_ok (snd st').
  Proof.
    induction fuel as [|f IH]; intros pending queue st ws st' HI HR H; destruct queue as [|i queue]; cbn [bottom_up] in H; try solve [minv; auto].
    apply bind_ok in H as (w1 & st1 & w2 & H1 & H & ->). destruct (fold_left _ _ _) as [pending' queue'] in H.
    assert (X : NI (fst st1) /\ res_ok (snd st1)).
    { destruct (successors g0 i) as [|c cs]; [minv; auto|]. eapply NI_finalize; eauto. }
    destruct X. eapply IH; eauto.
  Qed.

  Theorem resolve_nodes fuel ps ws l : (forall p, In p ps -> D (PaPer p)) -> resolve_peripherals fuel ps = (ws, Ok l) -> StronglySorted (leP iper_le) l /\
    forall p, In p l -> exists m, P m /\ n_tmpl m = false /\ n_processed m = Some (PrPer p).
  Proof.
    unfold resolve_peripherals. intros HD H. apply bind_ok in H as (w0 & g0 & w1 & H0 & H & ->). apply bind_ok in H as (w2 & g & w3 & H1 & H & ->).
    assert (HI := NI_init _ _ _ HD H0). apply init_grows in H0 as [W0 _]. apply NI_rounds in H1 as [W HI1]; auto.
    apply bind_ok in H as (w4 & u & w5 & _ & H & ->). apply bind_ok in H as (w6 & [g2 res] & w7 & H2 & H & ->). cbn [snd] in H.
    destruct res as [l'|]; minv. unfold bottom_up_traversal in H2. apply NI_bottom_up in H2 as [_ HR]; auto.
    intros l' E. discriminate.
  Qed.
End Inv.
