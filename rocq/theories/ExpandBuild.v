(** * ExpandBuild: the freshly built graph satisfies the invariant of ExpandInv. *)
From Coq Require Import Relations.
From Verif Require Import Base PyStr Types DimModel EnumModel ElemModel ResolveModel GraphFacts ReplicateFacts ResolveWF ResolveInv SpecDeclared SpecElem SpecExpand DescribeFacts PropsDim ExpandInv.

Lemma kids_declared ps e0 e : Declared ps e0 -> In e (kids_of e0) -> Declared ps e.
Proof.
  destruct e0 as [|p|[r|c l]|f|x]; cbn; intros HD H; try contradiction; apply in_map_iff in H as (y & <- & Hy); cbn.
  - exists p. split; [exact HD|]. now constructor.
  - destruct HD as (p & Hp & HD). exists p, r. auto.
  - destruct HD as (p & Hp & HD). exists p. split; [exact Hp|]. clear Hp. remember (SClu c l) as z. induction HD as [l0 x H|l0 c0 ch x H HD IH]; subst.
    + eapply DR_deep; [exact H|now constructor].
    + eapply DR_deep; [exact H|auto].
  - exists f. auto.
Qed.

Section Build.
  Context (ps : Sys).
  Definition NoDer (g : graph) : Prop := forall a b, ~ In (a, b, DERIVE) (g_edges g).
  Definition St (W : nat -> Prop) (g : graph) (KS : nat -> list parsed) : Prop := WF g /\ NInv ps W g KS /\ EInv g /\ NoDer g.

  Lemma close_undone W g KS c n : NInv ps (fun x => W x \/ x = c) g KS -> get_node g c = Some n -> n_done n = false -> KS c = kids_of (n_parsed n) -> NInv ps W g KS.
  Proof.
    intros V Hc Hd Hk. constructor; [apply (v_root _ _ _ _ V)| | |apply (v_nd _ _ _ _ V)|apply (v_prov _ _ _ _ V)].
    - intros i m Hi Hm. destruct (v_node _ _ _ _ V _ _ Hi Hm) as (H1 & H2 & H3 & H4). split; [exact H1|]. split; [exact H2|]. split; [|exact H4].
      intros Hdm. destruct (H3 Hdm) as (K1 & K2 & K3 & [[K4|K4]|K4]); repeat split; auto. subst i. rewrite Hc in Hm. injection Hm as <-. now right.
    - intros i Hi. destruct (v_kids _ _ _ _ V _ Hi) as (fams & HP & HF). exists fams. split; [exact HP|]. revert HF. generalize (KS i) at 1 3 as sc. generalize (KS i) as es. intros es sc HF. clear - HF Hc Hd.
      induction HF as [|e fam es fams H HF IH]; constructor; auto. destruct H as [e x m H1 H2 H3|e x m [H1|H1] H2 H3|e0 e' x m H1 H2 H3 H4|e x m v H1 H2 H3 H4 H5 H6|e x m js vs tv H1 H2 H3 H4 H5 H6 H7].
      + eapply F_undone; eauto.
      + eapply F_work; eauto.
      + subst x. eapply F_undone; eauto. congruence.
      + eapply F_evc; eauto.
      + eapply F_single; eauto.
      + eapply F_many; eauto.
  Qed.

  Lemma st_add_ph W g KS path c n ws g' : St W g KS -> get_node g c = Some n -> n_done n = false -> derived_of (n_parsed n) = Some path ->
    add_placeholder g path c = (ws, Ok g') -> St W g' KS /\ (forall i m, get_node g i = Some m -> get_node g' i = Some m).
  Proof.
    intros (Wf & V & E & ND) Hc Hd Hder H. apply add_ph_spec in H as (h & Wf' & _ & Hh & Hh' & Hs & He & _); [|exact Wf|apply get_node_slot in Hc; congruence].
    assert (Hn : forall i, get_node g' i = get_node g i).
    { intros i. destruct (Nat.eq_dec i h) as [->|Hi]; [unfold get_node; now rewrite Hh, Hh'|apply get_node_same, Hs, Hi]. }
    split; [|intros i m Hm; now rewrite Hn]. split; [exact Wf'|]. split; [|split].
    - eapply ninv_same; [exact V|exact Hn|]. intros i. rewrite He, ckids_cons. reflexivity.
    - assert (Hfr := fun a b t => fresh_no_edge g h a b t Wf Hh).
      assert (Hel : forall i, is_elem g' i = is_elem g i) by (intros i; unfold is_elem; now rewrite Hn).
      constructor.
      + intros a b t Hin Ht. rewrite He in Hin. destruct Hin as [Hin|Hin]; [injection Hin as <- <- <-; discriminate|]. rewrite !Hel. eapply (w_child _ E); eassumption.
      + intros a b Hin. rewrite He in Hin. destruct Hin as [Hin|Hin].
        * injection Hin as <- <-. left. exists path, n. rewrite Hn. auto.
        * destruct (Hfr _ _ _ Hin) as [Ha Hb]. destruct (w_ph _ E _ _ Hin) as [(q & m & H1 & H2)|(H1 & q & x & H2 & H3)].
          -- left. exists q, m. rewrite Hs, Hn by auto. auto.
          -- right. rewrite Hel, Hs by auto. split; [exact H1|]. exists q, x. split; [exact H2|]. rewrite He. now right.
      + intros p x y Hp H1 H2. rewrite Hel in Hp. rewrite He in H1, H2. rewrite He, ckids_cons. cbn [is_child andb].
        destruct H1 as [H1|H1]; [injection H1 as <- <-; unfold is_elem in Hp; rewrite <- Hn in Hp; unfold get_node in Hp; rewrite Hh' in Hp; discriminate|].
        destruct H2 as [H2|H2]; [injection H2 as <- <-; destruct (Hfr _ _ _ H1); congruence|]. eapply (w_link _ E); eassumption.
      + intros a b Hin. rewrite He in Hin. destruct Hin as [Hin|Hin]; [discriminate|]. destruct (w_der _ E _ _ Hin) as (na & nb & H1 & H2 & H3). exists na, nb. rewrite !Hn. auto.
    - intros a b Hin. rewrite He in Hin. destruct Hin as [Hin|Hin]; [discriminate|]. eapply ND; eassumption.
  Qed.

  Definition mayhave (W : nat -> Prop) (g : graph) (p : nat) (e : parsed) : Prop :=
    exists np, get_node g p = Some np /\ (p = 0%nat \/ W p /\ n_done np = false) /\ Below ps np e.

  Lemma st_element W g KS p t e ws r : St W g KS -> mayhave W g p e -> is_child t = true -> Declared ps e ->
    build_element g p t (declared_name e) (level_of e) e (derived_of e) = (ws, Ok r) ->
    St (fun x => W x \/ x = snd r) (fst r) (upd (upd KS p (KS p ++ [e])) (snd r) []) /\
    (forall i m, get_node g i = Some m -> get_node (fst r) i = Some m) /\ get_slot g (snd r) = None /\
    get_node (fst r) (snd r) = Some (mk_node (declared_name e) (level_of e) false e None false).
  Proof.
    intros (Wf & V & E & ND) (np & Hp & Hw & HB) Ht HD H. unfold build_element in H. apply bind_ok in H as (w1 & [g1 c] & w2 & H1 & H & _).
    apply add_child_spec in H1; auto; [|apply get_node_slot in Hp; congruence]. cbn [fst snd] in H1. destruct H1 as (Wf1 & _ & Hc & Hc' & Hs & He & _).
    assert (Hpe : is_elem g p = true) by (apply is_elem_node; eauto).
    assert (S1 : St (fun x => W x \/ x = c) g1 (upd (upd KS p (KS p ++ [e])) c [])).
    { split; [exact Wf1|]. split; [eapply ninv_add_child; eauto|]. split; [eapply einv_add_child; eauto|].
      intros a b Hin. rewrite He in Hin. destruct Hin as [Hin|Hin]; [injection Hin as -> -> ->; discriminate|eapply ND; eassumption]. }
    assert (K1 : forall i m, get_node g i = Some m -> get_node g1 i = Some m).
    { intros i m Hm. rewrite <- Hm. apply get_node_same, Hs. intros ->. apply get_node_slot in Hm. congruence. }
    assert (Hcn := proj2 (get_node_slot _ _ _) Hc'). destruct (derived_of e) as [path|] eqn:Ed.
    - apply bind_ok in H as (w3 & g2 & w4 & H2 & H & _). injection H as _ <-. cbn [fst snd] in *.
      eapply (st_add_ph _ _ _ path c) in H2; [|exact S1|exact Hcn|reflexivity|exact Ed]. destruct H2 as [S2 K2]. split; [exact S2|]. split; [auto|]. split; [exact Hc|]. now apply K2.
    - injection H as _ <-. cbn [fst snd] in *. auto.
  Qed.

  Definition Builds (f : graph -> M graph) (p : nat) (e : parsed) : Prop := forall W g KS ws g', St W g KS -> mayhave W g p e -> Declared ps e -> f g = (ws, Ok g') ->
    exists KS', St W g' KS' /\ (forall i m, get_node g i = Some m -> get_node g' i = Some m) /\ KS' p = KS p ++ [e] /\
      (forall x, is_elem g x = true -> x <> p -> KS' x = KS x).
  Lemma builds_list {A} (F : graph -> A -> M graph) (emb : A -> parsed) p : forall l, (forall x, In x l -> Builds (fun g => F g x) p (emb x)) ->
    forall W g KS ws g', St W g KS -> (forall x, In x l -> mayhave W g p (emb x) /\ Declared ps (emb x)) -> foldM F g l = (ws, Ok g') ->
    exists KS', St W g' KS' /\ (forall i m, get_node g i = Some m -> get_node g' i = Some m) /\ KS' p = KS p ++ map emb l /\
      (forall x, is_elem g x = true -> x <> p -> KS' x = KS x).
  Proof.
    induction l as [|x l IH]; intros HB W g KS ws g' S Hm H; cbn in H.
    - injection H as _ <-. exists KS. rewrite app_nil_r. auto.
    - apply bind_ok in H as (w1 & g1 & w2 & H1 & H & _). destruct (Hm x (or_introl eq_refl)) as [Hmx HDx].
      destruct (HB x (or_introl eq_refl) _ _ _ _ _ S Hmx HDx H1) as (KS1 & S1 & K1 & E1 & O1).
      destruct (IH (fun y Hy => HB y (or_intror Hy)) W g1 KS1 w2 g' S1) as (KS2 & S2 & K2 & E2 & O2); [|exact H|].
      { intros y Hy. destruct (Hm y (or_intror Hy)) as ((np & Hp & Hw & HBl) & HDy). split; [|exact HDy]. exists np. auto. }
      exists KS2. split; [exact S2|]. split; [auto|]. split; [rewrite E2, E1, <- app_assoc; reflexivity|].
      intros y Hy Hyp. rewrite O2, O1; auto. apply is_elem_node in Hy as [m Hy]. apply is_elem_node. eauto.
  Qed.
  (** an element with its children *)
  Lemma builds_node {A} (F : nat -> graph -> A -> M graph) (emb : A -> parsed) p t e l : is_child t = true -> kids_of e = map emb l ->
    (forall c x, In x l -> Builds (fun g => F c g x) c (emb x)) ->
    Builds (fun g => gi <- build_element g p t (declared_name e) (level_of e) e (derived_of e) ;; foldM (F (snd gi)) (fst gi) l) p e.
  Proof.
    intros Ht Hk HB W g KS ws g' S Hm HD H. apply bind_ok in H as (w1 & [g1 c] & w2 & H1 & H & _).
    assert (Hm' := Hm). destruct Hm' as (np & Hp & _).
    apply st_element with (1 := S) (2 := Hm) (3 := Ht) (4 := HD) in H1. cbn [fst snd] in H1, H. destruct H1 as (S1 & K1 & Hc & Hcn).
    assert (Hcp : c <> p) by (intros ->; apply get_node_slot in Hp; congruence).
    destruct (builds_list (F c) emb c l (HB c) _ g1 _ w2 g' S1) as (KS2 & S2 & K2 & E2 & O2); [|exact H|].
    { intros x Hx. assert (Hin : In (emb x) (kids_of e)) by (rewrite Hk; now apply in_map). split; [|eapply kids_declared; eassumption].
      eexists. split; [exact Hcn|]. split; [right; split; [now right|reflexivity]|]. right. exists e. split; [now left|]. split; [reflexivity|exact Hin]. }
    exists KS2. rewrite upd_eq in E2. cbn [app] in E2. assert (Hcn2 := K2 _ _ Hcn). destruct S2 as (Wf2 & V2 & E2' & ND2). split; [|split; [auto|split]].
    - split; [exact Wf2|]. split; [|auto]. eapply close_undone; [exact V2|exact Hcn2|reflexivity|]. cbn. now rewrite E2.
    - rewrite O2; [|apply is_elem_node; eauto|auto]. rewrite upd_neq, upd_eq by auto. reflexivity.
    - intros x Hx Hxp. apply is_elem_node in Hx as [m Hx]. rewrite O2; [|apply is_elem_node; eauto|intros ->; apply get_node_slot in Hx; congruence].
      rewrite !upd_neq; auto. intros ->. apply get_node_slot in Hx. congruence.
  Qed.

  Lemma builds_evc p e : Builds (fun g => build_evc p g e) p (PaEvc e).
  Proof.
    intros W g KS ws g' S Hm HD H. unfold build_evc in H.
    apply (builds_node (fun _ g (_ : unit) => ret g) (fun _ => PaDev) p CHILD_UNRESOLVED (PaEvc e) []) with (ws := ws) (g' := g') (1 := eq_refl) (2 := eq_refl) (4 := S); auto.
    intros c x [].
  Qed.
  Lemma builds_field p f : Builds (fun g => build_field p g f) p (PaFld f).
  Proof. apply (builds_node build_evc PaEvc p CHILD_UNRESOLVED (PaFld f) (sf_evcs f)); auto. intros. apply builds_evc. Qed.
  Lemma builds_rc x : forall p, Builds (fun g => build_rc p g x) p (PaRc x).
  Proof.
    induction x as [r|c l IH] using svd_rc_ind'; intros p.
    - apply (builds_node build_field PaFld p CHILD_UNRESOLVED (PaRc (SReg r)) (sr_fields r)); auto. intros. apply builds_field.
    - rewrite Forall_forall in IH. apply (builds_node build_rc PaRc p CHILD_UNRESOLVED (PaRc (SClu c l)) l); auto.
  Qed.
  Lemma builds_per p : Builds (fun g => build_per g p) 0 (PaPer p).
  Proof. apply (builds_node build_rc PaRc 0 CHILD_RESOLVED (PaPer p) (sp_rcs p)); auto. intros. apply builds_rc. Qed.

  Lemma st_start : St (fun _ => False) start_graph (fun _ => []).
  Proof.
    split; [exact WF_start|]. split; [|split].
    - constructor; [reflexivity| | | |].
      + intros i n Hi H. destruct i as [|[|i]]; [congruence|discriminate|discriminate].
      + intros i Hi. exists []. split; [constructor|constructor].
      + intros i. constructor.
      + intros i n e _ [].
    - constructor; intros *; cbn; tauto.
    - intros a b [].
  Qed.
  Lemma st_construct ws g : construct_graph ps = (ws, Ok g) -> exists KS, St (fun _ => False) g KS /\ KS 0%nat = map PaPer ps.
  Proof.
    rewrite construct_eq. intros H.
    destruct (builds_list build_per PaPer 0 ps (fun x _ => builds_per x) _ _ _ ws g st_start) as (KS & S & _ & E & _); [|exact H|].
    - intros p Hp. split; [|exact Hp]. exists root_node. split; [reflexivity|]. split; [now left|]. now left.
    - exists KS. auto.
  Qed.

  Lemma st_link W g KS h ws g' : St W g KS -> (exists path, get_slot g h = Some (NPh path)) -> link_placeholder g h = (ws, Ok g') -> St W g' KS /\ (forall i, get_slot g' i = get_slot g i).
  Proof.
    intros (Wf & V & E & ND) (path & Hh) H. unfold link_placeholder in H. apply bind_ok in H as (w1 & [p|] & w2 & H1 & H & _).
    2: { injection H as _ <-. split; [|auto]. split; auto. }
    apply co_parent_In in H1 as (c & t & Hsu & Hpc & Hpe).
    assert (Hhe : is_elem g h = false) by (unfold is_elem, get_node; now rewrite Hh).
    assert (Hph : forall x u, In (h, x, u) (g_edges g) -> u = PLACEHOLDER /\ x = c).
    { intros x u Hx. assert (Hx' : In x (successors g h)) by (apply successors_In; exists u; exact Hx). rewrite Hsu in Hx'. destruct Hx' as [->|[]]. split; [|reflexivity].
      destruct u; auto; exfalso; [| |exact (ND _ _ Hx)]; (destruct (w_child _ E _ _ _ Hx) as [K _]; [reflexivity|congruence]). }
    assert (Hhc : In (h, c, PLACEHOLDER) (g_edges g)).
    { assert (Hx : In c (successors g h)) by (rewrite Hsu; now left). apply successors_In in Hx as (u & Hx). destruct (Hph _ _ Hx) as [-> _]. exact Hx. }
    assert (Hce : is_elem g c = true).
    { destruct (w_ph _ E _ _ Hhc) as [(q & m & _ & Hm & _)|[K _]]; [apply is_elem_node; eauto|congruence]. }
    assert (Hck : In c (ckids (g_edges g) p)).
    { apply ckids_In. exists t. split; [exact Hpc|]. destruct t; auto; exfalso; [|exact (ND _ _ Hpc)].
      destruct (w_ph _ E _ _ Hpc) as [(q & m & K & _)|(_ & q & m & K & _)].
      - unfold is_elem, get_node in Hpe. rewrite K in Hpe. discriminate.
      - unfold is_elem, get_node in Hce. rewrite K in Hce. discriminate. }
    assert (Wf' : WF g'). { eapply (WF_add_edge_m g p h PLACEHOLDER); [exact Wf| |congruence|exact H]. apply is_elem_node in Hpe as [m Hm]. apply get_node_slot in Hm. congruence. }
    apply add_edge_m_eq in H as (_ & -> & _). cbn [g_slots]. split; [|auto].
    assert (Hck' : forall i, ckids ((p, h, PLACEHOLDER) :: g_edges g) i = ckids (g_edges g) i) by (intros; now rewrite ckids_cons).
    split; [exact Wf'|]. split; [|split].
    - eapply ninv_same; [exact V|reflexivity|exact Hck'].
    - constructor; cbn [g_edges].
      + intros a b u Hin Hu. destruct Hin as [Hin|Hin]; [injection Hin as <- <- <-; discriminate|]. apply (w_child _ E _ _ _ Hin Hu).
      + intros a b Hin. destruct Hin as [Hin|Hin].
        * injection Hin as <- <-. right. split; [exact Hpe|]. exists path, c. split; [exact Hh|now right].
        * destruct (w_ph _ E _ _ Hin) as [K|(K1 & q & x & K2 & K3)]; [left; exact K|]. right. split; [exact K1|]. exists q, x. split; [exact K2|now right].
      + intros q x y Hq H1 H2. rewrite Hck'. destruct H2 as [H2|H2].
        * injection H2 as <- <-. destruct H1 as [H1|H1]; [injection H1 as <- <-; change (is_elem g h = true) in Hpe; congruence|].
          destruct (w_ph _ E _ _ H1) as [(z & m & K & _)|(_ & z & m & K & _)].
          -- change (is_elem g q = true) in Hq. unfold is_elem, get_node in Hq. rewrite K in Hq. discriminate.
          -- unfold is_elem, get_node in Hpe. rewrite K in Hpe. discriminate.
        * destruct H1 as [H1|H1].
          -- injection H1 as <- <-. destruct (Hph _ _ H2) as [_ ->]. exact Hck.
          -- apply (w_link _ E _ _ _ Hq H1 H2).
      + intros a b Hin. destruct Hin as [Hin|Hin]; [discriminate|]. exact (w_der _ E _ _ Hin).
    - intros a b Hin. destruct Hin as [Hin|Hin]; [discriminate|]. eapply ND; eassumption.
  Qed.
  Lemma st_initialization ws g : initialization ps = (ws, Ok g) -> exists KS, St (fun _ => False) g KS /\ KS 0%nat = map PaPer ps.
  Proof.
    intros H. apply bind_ok in H as (w1 & g0 & w2 & H1 & H & _). apply st_construct in H1 as (KS & S & E). exists KS. split; [|exact E].
    assert (Hp : forall h, In h (g_phs g0) -> exists path, get_slot g0 h = Some (NPh path)) by (intros h; apply (wf_phs _ (proj1 S))).
    revert Hp H. generalize (g_phs g0). intros l. clear E. revert g0 w2 S. induction l as [|h l IH]; intros g0 w2 S Hp H; cbn in H.
    - injection H as _ <-. exact S.
    - apply bind_ok in H as (w3 & g1 & w4 & H1 & H & _). destruct (st_link _ _ _ _ _ _ S (Hp h (or_introl eq_refl)) H1) as [S1 Hs].
      eapply IH; [exact S1| |exact H]. intros x Hx. rewrite Hs. apply Hp. now right.
  Qed.
End Build.
