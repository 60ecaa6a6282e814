(** * EdgeFacts: which edges the graph of the resolver has, in every state: from an element to one of the level below, to and from the placeholder of a reference, and from a base to a derived element (C34, C43). *)
From Coq Require Import Relations.
From Verif Require Import Base PyStr PyInt Types ElemModel FinalModel ResolveModel GraphFacts ReplicateFacts ResolveWF TopoFacts SpecExpand ExpandInv ExpandStep ExpandBuild ExpandNode BuildOk SpecLog LogListed DrawFacts AcceptFacts SpecSearch SearchFacts ResolveInv LogFacts LookupOk TermFacts ExpandRounds.

Definition child_ok (a b : level) : Prop :=
  match a, b with
  | LDevice, LPeripheral | LPeripheral, LRegister | LPeripheral, LCluster | LCluster, LRegister | LCluster, LCluster | LRegister, LField | LField, LEnum => True
  | _, _ => False
  end.
Definition lv (g : graph) (i : nat) (l : level) : Prop := exists n, get_node g i = Some n /\ n_level n = l.
Definition is_ph (g : graph) (i : nat) : Prop := exists p, get_slot g i = Some (NPh p).
Record CE (g : graph) : Prop := {
  ce_child : forall a b t, In (a, b, t) (g_edges g) -> is_child t = true -> exists la lb, lv g a la /\ lv g b lb /\ child_ok la lb;
  ce_ph : forall a b, In (a, b, PLACEHOLDER) (g_edges g) -> is_ph g a /\ (exists lb, lv g b lb) \/ (exists la, lv g a la) /\ is_ph g b;
  ce_der : forall a b, In (a, b, DERIVE) (g_edges g) -> exists l, lv g a l /\ lv g b l;
  ce_link : forall p h c, In (p, h, PLACEHOLDER) (g_edges g) -> In (h, c, PLACEHOLDER) (g_edges g) -> is_ph g h -> exists lp lc, lv g p lp /\ lv g c lc /\ child_ok lp lc }.
Lemma lv_fun g i a b : lv g i a -> lv g i b -> a = b.
Proof. intros (n & H & <-) (m & K & <-). congruence. Qed.
Lemma lv_ph g i l : lv g i l -> is_ph g i -> False.
Proof. intros (n & H & _) (p & K). apply get_node_slot in H. congruence. Qed.
Lemma lv_elem g i : is_elem g i = true -> exists l, lv g i l.
Proof. intros H. apply is_elem_node in H as (n & H). exists (n_level n), n. auto. Qed.
Lemma elem_lv g i l : lv g i l -> is_elem g i = true.
Proof. intros (n & H & _). unfold is_elem. now rewrite H. Qed.
Lemma child_lt a b : child_ok a b -> lv_lt a b.
Proof. unfold lv_lt. destruct a, b; cbn; intros H; try destruct H; auto; left; lia. Qed.
Lemma lt_same a : lv_lt a a -> a = LCluster.
Proof. intros [H|[H _]]; [lia|exact H]. Qed.
(** steps that copy nothing *)
Lemma ce_step g g' : CE g -> (forall i l, lv g i l -> lv g' i l) -> (forall h, is_ph g' h -> is_ph g h) ->
  (forall a b t, In (a, b, t) (g_edges g') -> In (a, b, t) (g_edges g) /\ (is_ph g a -> is_ph g' a) /\ (is_ph g b -> is_ph g' b) \/
     is_child t = true /\ (exists la lb, lv g' a la /\ lv g' b lb /\ child_ok la lb) \/ t = DERIVE /\ exists l, lv g' a l /\ lv g' b l) -> CE g'.
Proof.
  intros C KL KP KE. constructor.
  - intros a b t H Ht. destruct (KE _ _ _ H) as [(H1 & _)|[(_ & H1)|(-> & _)]]; [|exact H1|discriminate]. destruct (ce_child _ C _ _ _ H1 Ht) as (la & lb & Ha & Hb & K). exists la, lb. auto.
  - intros a b H. destruct (KE _ _ _ H) as [(H1 & Pa & Pb)|[(H1 & _)|(H1 & _)]]; [|discriminate|discriminate]. destruct (ce_ph _ C _ _ H1) as [(Q & l & Hl)|((l & Hl) & Q)]; [left|right]; split; eauto.
  - intros a b H. destruct (KE _ _ _ H) as [(H1 & _)|[(H1 & _)|(_ & H1)]]; [|discriminate|exact H1]. destruct (ce_der _ C _ _ H1) as (l & Ha & Hb). eauto.
  - intros p h c H1 H2 H3. destruct (KE _ _ _ H1) as [(K1 & _)|[(K1 & _)|(K1 & _)]]; [|discriminate|discriminate]. destruct (KE _ _ _ H2) as [(K2 & _)|[(K2 & _)|(K2 & _)]]; [|discriminate|discriminate].
    destruct (ce_link _ C _ _ _ K1 K2 (KP _ H3)) as (lp & lc & Hp & Hc & K). exists lp, lc. auto.
Qed.
(** what is reached from an element without derivation edges lies below it *)
Lemma ce_below g a b la : CE g -> lv g a la -> Desc g a b -> (forall lb, lv g b lb -> lv_lt la lb) /\ (is_ph g b -> forall c, In (b, c, PLACEHOLDER) (g_edges g) -> exists lc, lv g c lc /\ lv_lt la lc).
Proof.
  intros C Ha H. apply clos_trans_tn1 in H. induction H as [b (t & H & Ht)|b d (t & H & Ht) _ IH].
  - destruct (is_child t) eqn:Et.
    + destruct (ce_child _ C _ _ _ H Et) as (la' & lb & Ha' & Hb & K). rewrite (lv_fun _ _ _ _ Ha' Ha) in K. split; [intros lb' Hb'; rewrite (lv_fun _ _ _ _ Hb' Hb); now apply child_lt|]. intros P. destruct (lv_ph _ _ _ Hb P).
    + destruct t; try discriminate Et; [|congruence]. destruct (ce_ph _ C _ _ H) as [(P & _)|(_ & P)]; [destruct (lv_ph _ _ _ Ha P)|]. split; [intros lb Hb; destruct (lv_ph _ _ _ Hb P)|]. intros _ c Hc.
      destruct (ce_link _ C _ _ _ H Hc P) as (lp & lc & Hp & Hlc & K). exists lc. split; [exact Hlc|]. rewrite <- (lv_fun _ _ _ _ Hp Ha). now apply child_lt.
  - destruct IH as [IH1 IH2]. destruct (is_child t) eqn:Et.
    + destruct (ce_child _ C _ _ _ H Et) as (lb & ld & Hb & Hd & K). split; [intros ld' Hd'; rewrite (lv_fun _ _ _ _ Hd' Hd); exact (lv_lt_trans _ _ _ (IH1 _ Hb) (child_lt _ _ K))|]. intros P. destruct (lv_ph _ _ _ Hd P).
    + destruct t; try discriminate Et; [|congruence]. destruct (ce_ph _ C _ _ H) as [(P & ld0 & Hd0)|((lb & Hb) & P)].
      * destruct (IH2 P _ H) as (ld & Hd & K). split; [intros ld' Hd'; rewrite (lv_fun _ _ _ _ Hd' Hd); exact K|]. intros Q. destruct (lv_ph _ _ _ Hd Q).
      * split; [intros ld Hd; destruct (lv_ph _ _ _ Hd P)|]. intros _ c Hc. destruct (ce_link _ C _ _ _ H Hc P) as (lp & lc & Hp & Hlc & K). exists lc. split; [exact Hlc|]. rewrite (lv_fun _ _ _ _ Hp Hb) in K. exact (lv_lt_trans _ _ _ (IH1 _ Hb) (child_lt _ _ K)).
Qed.
Section Copy.
  Context (g : graph) (b i : nat) (g1 : graph) (m : list (nat * nat)) (W : WF g) (C : CE g) (R : Replicated g b i g1 m) (l0 : level) (Hb : lv g b l0) (Hi : lv g i l0).
  Lemma cp_old j l : lv g j l -> lv g1 j l.
  Proof. intros (n & H & K). exists n. split; [|exact K]. exact (ReplicateFacts.keeps_node _ _ _ _ (rp_keeps _ _ _ _ _ R) H). Qed.
  Lemma cp_new j k l : In (j, k) m -> lv g j l -> lv g1 k l.
  Proof. intros Hm (n & H & K). exists n. split; [|exact K]. destruct (rp_fresh _ _ _ _ _ R j k Hm) as [_ E]. apply get_node_slot. rewrite E. now apply get_node_slot. Qed.
  Lemma cp_ph_old j : is_ph g j -> is_ph g1 j.
  Proof. intros (p & H). exists p. exact (rp_keeps _ _ _ _ _ R _ _ H). Qed.
  Lemma cp_ph_new j k : In (j, k) m -> (is_ph g j <-> is_ph g1 k).
  Proof. intros Hm. destruct (rp_fresh _ _ _ _ _ R j k Hm) as [_ E]. unfold is_ph. now rewrite E. Qed.
  Lemma cp_fresh j k : In (j, k) m -> get_slot g k = None.
  Proof. intros Hm. exact (proj1 (rp_fresh _ _ _ _ _ R j k Hm)). Qed.
  Lemma cp_desc j k : In (j, k) m -> Desc g b j.
  Proof. intros H. apply (rp_dom _ _ _ _ _ R). apply in_map_iff. now exists (j, k). Qed.
  Lemma slot_old j k : get_slot g j <> None -> In (k, j) m -> False.
  Proof. intros H K. exact (H (cp_fresh _ _ K)). Qed.
  Lemma lv_slot j l : lv g j l -> get_slot g j <> None.
  Proof. intros (n & H & _). apply get_node_slot in H. congruence. Qed.
  Lemma cp_inj j j' k : In (j, k) m -> In (j', k) m -> j = j'.
  Proof.
    intros H K. assert (N := rp_inj _ _ _ _ _ R). revert H K N. generalize m. intros l. induction l as [|[x y] l IH]; intros H K N; [destruct H|]. cbn in N. inversion N as [|? ? N1 N2]. subst.
    destruct H as [E|H], K as [E'|K].
    - congruence.
    - injection E as -> ->. exfalso. apply N1. apply in_map_iff. now exists (j', k).
    - injection E' as -> ->. exfalso. apply N1. apply in_map_iff. now exists (j, k).
    - auto.
  Qed.
  Lemma attach_kind c t0 : In (b, c, t0) (g_edges g) -> Desc g b c -> is_elem g c = true /\ (exists lc, lv g c lc /\ child_ok l0 lc) \/ is_elem g c = false /\ t0 = PLACEHOLDER /\ is_ph g c.
  Proof.
    intros H D. destruct (is_child t0) eqn:Et.
    - left. destruct (ce_child _ C _ _ _ H Et) as (lb & lc & Hb' & Hc & K). split; [exact (elem_lv _ _ _ Hc)|]. exists lc. split; [exact Hc|]. now rewrite <- (lv_fun _ _ _ _ Hb' Hb).
    - destruct t0; try discriminate Et.
      + right. destruct (ce_ph _ C _ _ H) as [(P & _)|(_ & P)]; [destruct (lv_ph _ _ _ Hb P)|]. split; [|auto]. destruct P as (p & P). unfold is_elem, get_node. now rewrite P.
      + left. destruct (ce_der _ C _ _ H) as (l & Hb' & Hc). rewrite (lv_fun _ _ _ _ Hb' Hb) in Hc. split; [exact (elem_lv _ _ _ Hc)|]. exists l0. split; [exact Hc|].
        rewrite (lt_same _ (proj1 (ce_below _ _ _ _ C Hb D) _ Hc)). exact I.
  Qed.
  Lemma ce_copy : CE g1.
  Proof.
    destruct (rp_edges _ _ _ _ _ R) as (new & He & Hnew).
    assert (ATT : forall c k t0, In (b, c, t0) (g_edges g) -> In (c, k) m -> (is_child (attach_type g b c) = true /\ exists lc, lv g1 k lc /\ child_ok l0 lc) \/ (attach_type g b c = PLACEHOLDER /\ t0 = PLACEHOLDER /\ is_ph g1 k)).
    { intros c k t0 H1 H2. destruct (attach_kind c t0 H1 (cp_desc _ _ H2)) as [(Ee & lc & Hc & K)|(Ee & Et & P)]; unfold attach_type; rewrite Ee; [left|right].
      - split; [destruct (match get_node g b with Some n => n_done n | None => false end); reflexivity|]. exists lc. split; [exact (cp_new _ _ _ H2 Hc)|exact K].
      - split; [reflexivity|]. split; [exact Et|]. now apply (cp_ph_new _ _ H2). }
    assert (Hi1 := cp_old _ _ Hi). constructor.
    - intros x y t H Ht. rewrite He in H. apply in_app_iff in H as [H|H].
      + apply Hnew in H as [(j & c & Hj & Hc & H)|[(j & Hj & H & E)|(-> & c & t0 & H & Hc & Et)]].
        * destruct (ce_child _ C _ _ _ H Ht) as (la & lb & Ha & Hlb & K). exists la, lb. eauto using cp_new.
        * subst t. discriminate.
        * subst t. destruct (ATT _ _ _ H Hc) as [(_ & lc & Hlc & K)|(E & _)]; [|rewrite E in Ht; discriminate]. exists l0, lc. auto.
      + destruct (ce_child _ C _ _ _ H Ht) as (la & lb & Ha & Hlb & K). exists la, lb. eauto using cp_old.
    - intros x y H. rewrite He in H. apply in_app_iff in H as [H|H].
      + apply Hnew in H as [(j & c & Hj & Hc & H)|[(j & Hj & H & E)|(-> & c & t0 & H & Hc & Et)]].
        * destruct (ce_ph _ C _ _ H) as [(P & l & Hl)|((l & Hl) & P)]; [left|right]; split; eauto using cp_new; [now apply (cp_ph_new _ _ Hj)|now apply (cp_ph_new _ _ Hc)].
        * discriminate.
        * destruct (ATT _ _ _ H Hc) as [(E & _)|(_ & _ & P)]; [rewrite <- Et in E; discriminate|]. right. eauto.
      + destruct (ce_ph _ C _ _ H) as [(P & l & Hl)|((l & Hl) & P)]; [left|right]; split; eauto using cp_old, cp_ph_old.
    - intros x y H. rewrite He in H. apply in_app_iff in H as [H|H].
      + apply Hnew in H as [(j & c & Hj & Hc & H)|[(j & Hj & H & E)|(-> & c & t0 & H & Hc & Et)]].
        * destruct (ce_der _ C _ _ H) as (l & Ha & Hl). eauto using cp_new.
        * destruct (ce_der _ C _ _ H) as (l & Ha & Hl). eauto using cp_new, cp_old.
        * destruct (ATT _ _ _ H Hc) as [(E & _)|(E & _)]; rewrite <- Et in E; discriminate.
      + destruct (ce_der _ C _ _ H) as (l & Ha & Hl). eauto using cp_old.
    - intros p h c H1 H2 P. rewrite He in H1, H2. apply in_app_iff in H1 as [H1|H1], H2 as [H2|H2].
      + apply Hnew in H1 as [(p0 & h0 & Hp0 & Hh0 & H1)|[(? & _ & _ & E)|(-> & h0 & t0 & H1 & Hh0 & E1)]]; [|discriminate|]; (apply Hnew in H2 as [(h1 & c0 & Hh1 & Hc0 & H2)|[(? & _ & _ & E)|(-> & _)]]; [|discriminate|destruct (slot_old _ _ (lv_slot _ _ Hi) Hh0)]).
        * rewrite (cp_inj _ _ _ Hh1 Hh0) in H2. apply (cp_ph_new _ _ Hh0) in P. destruct (ce_link _ C _ _ _ H1 H2 P) as (lp & lc & Hp & Hc & K). exists lp, lc. eauto using cp_new.
        * rewrite (cp_inj _ _ _ Hh1 Hh0) in H2. destruct (ATT _ _ _ H1 Hh0) as [(E & _)|(_ & -> & _)]; [rewrite <- E1 in E; discriminate|]. apply (cp_ph_new _ _ Hh0) in P. destruct (ce_link _ C _ _ _ H1 H2 P) as (lp & lc & Hp & Hc & K).
          rewrite (lv_fun _ _ _ _ Hp Hb) in K. exists l0, lc. eauto using cp_new.
      + exfalso. assert (S := proj1 (wf_edge _ W _ _ _ H2)). apply Hnew in H1 as [(? & ? & _ & K & _)|[(? & _ & _ & E)|(_ & ? & ? & _ & K & _)]]; [|discriminate|]; exact (slot_old _ _ S K).
      + exfalso. assert (S := proj2 (wf_edge _ W _ _ _ H1)). apply Hnew in H2 as [(? & ? & K & _)|[(? & _ & _ & E)|(E & _)]]; [exact (slot_old _ _ S K)|discriminate|]. subst h. exact (lv_ph _ _ _ Hi1 P).
      + assert (P' : is_ph g h). { destruct P as (q & P). destruct (get_slot g h) as [s|] eqn:Es; [|destruct (proj2 (wf_edge _ W _ _ _ H1) Es)]. assert (E := rp_keeps _ _ _ _ _ R h s Es). exists q. congruence. }
        destruct (ce_link _ C _ _ _ H1 H2 P') as (lp & lc & Hp & Hc & K). exists lp, lc. eauto using cp_old.
  Qed.
End Copy.
Lemma ce_remove_edge g b i : CE g -> CE (remove_edge g b i).
Proof. intros C. apply (ce_step g); [exact C|auto|auto|]. intros x y t H. left. cbn [remove_edge g_edges] in H. split; [exact (remove_In _ _ _ _ H)|auto]. Qed.
Lemma ce_prepared g i base g1 : WF g -> CE g -> Prepared g i base g1 -> (forall b, base = Some b -> exists l, lv g b l /\ lv g i l) -> CE g1.
Proof.
  intros W C H HB. destruct base as [b|]; cbn in H; [|now subst]. destruct H as (m & R). destruct (HB b eq_refl) as (l & Hb & Hi). apply (ce_copy (remove_edge g b i) b i g1 m) with (l0 := l); auto; [now apply WF_remove_edge|now apply ce_remove_edge].
Qed.
(** a node is replaced by one of the same level *)
Lemma ce_set g i n n' : CE g -> get_node g i = Some n -> n_level n' = n_level n -> CE (set_node g i n').
Proof.
  intros C Hn Hl. assert (P : forall h, is_ph (set_node g i n') h <-> is_ph g h).
  { intros h. unfold is_ph. rewrite (set_node_slot _ _ _ _ Hn). destruct (Nat.eqb_spec i h) as [->|_]; [|tauto]. apply get_node_slot in Hn. rewrite Hn. split; intros (p & E); discriminate. }
  apply (ce_step g); [exact C| |intros h; apply P|intros x y t H; left; split; [exact H|split; apply P]].
  intros j l (m & Hm & K). unfold lv. rewrite (set_node_node _ _ _ _ _ Hn). destruct (Nat.eqb_spec i j) as [->|_]; [|eauto]. exists n'. split; [reflexivity|congruence].
Qed.
Lemma resolved_In' i cs a b u : forall es, In (a, b, u) (set_resolved es i cs) -> In (a, b, u) es \/ a = i /\ In b cs /\ u = CHILD_RESOLVED.
Proof.
  unfold set_resolved. induction cs as [|c cs IH]; intros es H; [now left|]. cbn in H. destruct (IH _ H) as [K|(-> & K & ->)]; [|right; split; [reflexivity|split; [now right|reflexivity]]].
  apply AcceptFacts.update_first_In in K as [K|(-> & -> & ->)]; [now left|]. right. split; [reflexivity|]. split; [now left|reflexivity].
Qed.
Lemma ce_update g i base v t ws g' n : WF g -> CE g -> get_node g i = Some n -> (forall b, base = Some b -> exists l, lv g b l /\ lv g i l) -> update_node g i base v t = (ws, Ok g') -> CE g'.
Proof.
  intros W C Hn HB H. apply (update_node_spec _ _ _ _ _ _ _ n W Hn) in H as (g1 & HP & _ & W' & Hs & He & _). assert (C1 := ce_prepared _ _ _ _ W C HP HB). destruct (prepared_keeps _ _ _ _ W HP) as [W1 K1]. assert (Hn1 := ReplicateFacts.keeps_node _ _ _ _ K1 Hn).
  set (n' := mk_node _ _ _ _ _ _) in *. assert (C2 := ce_set g1 i n n' C1 Hn1 eq_refl).
  assert (SE : forall j, get_slot g' j = get_slot (set_node g1 i n') j) by (intros j; rewrite Hs, (set_node_slot _ _ _ _ Hn1); destruct (Nat.eqb i j); reflexivity).
  assert (NE : forall j, get_node g' j = get_node (set_node g1 i n') j) by (intros j; unfold get_node; now rewrite SE).
  assert (PE : forall j, is_ph g' j <-> is_ph (set_node g1 i n') j) by (intros j; unfold is_ph; now rewrite SE).
  assert (LE : forall j l, lv (set_node g1 i n') j l -> lv g' j l) by (intros j l (m & Hm & K); exists m; now rewrite NE).
  apply (ce_step (set_node g1 i n')); [exact C2|exact LE|intros h; apply PE|]. intros a b u H. rewrite He in H. apply resolved_In' in H as [H|(-> & H & ->)]; [left; split; [exact H|split; apply PE]|right; left; split; [reflexivity|]].
  apply element_childrens_In in H as (t' & H & Ht & _). destruct (ce_child _ C2 _ _ _ H Ht) as (la & lb & Ha & Hb & K). exists la, lb. auto.
Qed.
Lemma ce_process g i ws g' : WF g -> CE g -> process_node g i = (ws, Ok g') -> CE g'.
Proof.
  intros W C H. apply process_node_inv in H as (n & base & bv & Hn & _ & HB0 & H). assert (Hi : get_slot g i <> None) by (apply get_node_slot in Hn; congruence).
  assert (HB : forall b, base = Some b -> exists l, lv g b l /\ lv g i l).
  { intros b Eb. destruct HB0 as [(_ & -> & _)|(path & b' & nb & _ & Eb' & _ & Hnb & Hl & _)]; [discriminate|]. rewrite Eb in Eb'. injection Eb' as <-. exists (n_level n). split; [exists nb; auto|exists n; auto]. }
  destruct H as [(e & _ & w & H)|(_ & w & H)].
  - apply (process_evc_spec _ _ _ _ _ n W Hn) in H as [(_ & W' & ->)|(b & nb & e' & g1 & Eb & _ & _ & (m & R) & W' & Hn1 & ->)].
    + (apply (ce_set _ _ n _ C Hn); reflexivity).
    + set (n1 := mk_node (n_name n) (n_level n) (n_done n) (n_parsed nb) (n_processed n) (n_tmpl n)) in *. apply (ce_set g1 i n1 _); [|exact Hn1|reflexivity]. assert (W0 : WF (set_node g i n1)) by (eapply WF_set_node; eassumption).
      destruct (HB b Eb) as (l & (nb' & Hnb & Lb) & (n0 & Hn0 & Li)). replace n0 with n in * by congruence.
      assert (L1 : forall j m l, get_node g j = Some m -> n_level m = l -> lv (set_node g i n1) j l).
      { intros j q l1 Hq K. unfold lv. rewrite (set_node_node _ _ _ _ _ Hn). destruct (Nat.eqb_spec i j) as [->|_]; [|eauto]. exists n1. split; [reflexivity|]. cbn. congruence. }
      apply (ce_copy (remove_edge (set_node g i n1) b i) b i g1 m) with (l0 := l); [now apply WF_remove_edge|apply ce_remove_edge; (apply (ce_set _ _ n _ C Hn); reflexivity)|exact R|exact (L1 _ _ _ Hnb Lb)|exact (L1 _ _ _ Hn Li)].
  - apply process_dimable_inv in H as (w1 & is_dim & names & displays & w' & v & vs & _ & _ & w'' & H). destruct is_dim.
    + apply (update_dim_node_spec _ _ _ _ _ _ _ n W Hn) in H as (g1 & xs & (w2 & H1) & W' & K & _ & Hxs & _ & Hx & Hj & He). assert (C1 := ce_update _ _ _ _ _ _ _ _ W C Hn HB H1).
      destruct (update_node_spec _ _ _ _ _ _ _ _ W Hn H1) as (g0 & _ & _ & _ & Hs1 & _). assert (Hn1 := Hs1 i). rewrite Nat.eqb_refl in Hn1. apply get_node_slot in Hn1.
      assert (KL : forall j l, lv g1 j l -> lv g' j l) by (intros j l (q & Hq & E); exists q; split; [exact (ReplicateFacts.keeps_node _ _ _ _ K Hq)|exact E]).
      assert (KP : forall j, is_ph g1 j -> is_ph g' j) by (intros j (p & Hp); exists p; exact (K _ _ Hp)).
      assert (NL : forall x, In x xs -> lv g' (i_idx x) (n_level n)) by (intros x Hin; destruct (Hx x Hin) as [_ E]; exists (inst_node n (i_val x)); split; [now apply get_node_slot|reflexivity]).
      apply (ce_step g1); [exact C1|exact KL| |].
      * intros h (p & Hh). destruct (in_dec Nat.eq_dec h (map i_idx xs)) as [Hin|Hin]; [apply in_map_iff in Hin as (x & <- & Hin); destruct (Hx x Hin) as [_ E]; rewrite Hh in E; discriminate E|]. rewrite (Hj h Hin) in Hh. now exists p.
      * intros a b t H. rewrite He in H. apply in_app_iff in H as [H|H]; [|apply in_app_iff in H as [H|H]; [|left; split; [exact H|auto]]]; right; left; apply in_rev, in_map_iff in H as (z & E & H).
        -- destruct z as [j c]. cbn in E. injection E as <- <- <-. split; [reflexivity|]. apply in_prod_iff in H as [H1' H2]. apply in_map_iff in H1' as (x & <- & Hin). apply element_childrens_In in H2 as (t & H2 & Ht & _).
           destruct (ce_child _ C1 _ _ _ H2 Ht) as (la & lb & (na & Ha & La) & Hb & Q). exists la, lb. split; [|auto]. replace la with (n_level n); [exact (NL x Hin)|]. rewrite Hn1 in Ha. injection Ha as <-. exact La.
        -- injection E as <- <- <-. split; [reflexivity|]. assert (Hp : In (i_par z, i_val z) (list_prod (get_element_parents g1 i) (map without_dim (v :: vs)))) by (rewrite <- Hxs; apply (in_map (fun x => (i_par x, i_val x))); exact H).
           apply in_prod_iff in Hp as [Hp _]. apply element_parents_In in Hp as (t & Hp & Ht & _). destruct (ce_child _ C1 _ _ _ Hp Ht) as (la & lb & Ha & (nb & Hb & Lb) & Q). exists la, lb. split; [auto|]. split; [|exact Q].
           replace lb with (n_level n); [exact (NL z H)|]. rewrite Hn1 in Hb. injection Hb as <-. exact Lb.
    + exact (ce_update _ _ _ _ _ _ _ _ W C Hn HB H).
Qed.
Lemma ce_nodes l : forall g ws g', WF g -> CE g -> foldM process_node g l = (ws, Ok g') -> CE g'.
Proof.
  induction l as [|i l IH]; intros g ws g' W C H; cbn [foldM] in H; [apply ret_ok in H as [<- _]; exact C|]. apply bind_ok in H as (w1 & g1 & w2 & H1 & H2 & _). exact (IH _ _ _ (process_node_WF _ _ _ _ W H1) (ce_process _ _ _ _ W C H1) H2).
Qed.
Lemma ce_resolve g h ws g' : CE g -> resolve_placeholder g h = (ws, Ok g') -> CE g'.
Proof.
  intros C H. apply resolve_ph_inv in H as [->|(parent & pn & child & n & path & b & _ & _ & _ & _ & Hp & Hc & HP & _ & ->)]; [exact C|].
  assert (KN : forall j m, get_node g j = Some m -> get_node (remove_placeholder g h) j = Some m).
  { intros j m Hm. apply get_node_slot. rewrite (remove_ph_slot _ _ _ Hp). apply get_node_slot in Hm. destruct (Nat.eqb_spec h j) as [->|_]; [congruence|exact Hm]. }
  apply (ce_step g); [exact C| | |].
  - intros j l (m & Hm & K). exists m. split; [exact (KN _ _ Hm)|exact K].
  - intros j (p & Hj). change (get_slot (remove_placeholder g h) j = Some (NPh p)) in Hj. rewrite (remove_ph_slot _ _ _ Hp) in Hj. destruct (Nat.eqb h j); [discriminate|]. now exists p.
  - intros x y t [E|H].
    + injection E as <- <- <-. right. right. split; [reflexivity|]. destruct (path_resolving_node _ _ _ _ _ _ HP) as (_ & nb & Hb & Hl). exists (n_level n). split; [exists nb; split; [exact (KN _ _ Hb)|congruence]|exists n; split; [exact (KN _ _ Hc)|reflexivity]].
    + left. cbn [remove_placeholder g_edges] in H. apply filter_In in H as [H E]. cbn in E. apply andb_prop in E as [E1 E2]. apply negb_true_iff in E1, E2. split; [exact H|].
      split; intros (p & P); exists p; change (get_slot (remove_placeholder g h) ?z) with (get_slot (remove_placeholder g h) z); match goal with |- get_slot _ ?z = _ => change (get_slot (remove_placeholder g h) z = Some (NPh p)) end; rewrite (remove_ph_slot _ _ _ Hp); rewrite Nat.eqb_sym; [rewrite E1|rewrite E2]; exact P.
Qed.
Lemma ce_phs l : forall g ws g', CE g -> foldM resolve_placeholder g l = (ws, Ok g') -> CE g'.
Proof.
  induction l as [|h l IH]; intros g ws g' C H; cbn [foldM] in H; [apply ret_ok in H as [<- _]; exact C|]. apply bind_ok in H as (w1 & g1 & w2 & H1 & H2 & _). exact (IH _ _ _ (ce_resolve _ _ _ _ C H1) H2).
Qed.
Lemma kids_ok e0 e : In e (kids_of e0) -> child_ok (level_of e0) (level_of e).
Proof.
  destruct e0 as [|p|[r|c l]|f|v]; cbn [kids_of]; intros H; try destruct H; apply in_map_iff in H as (x & <- & _); try exact I; destruct x; exact I.
Qed.
Lemma ce_start ps ws g : initialization ps = (ws, Ok g) -> CE g.
Proof.
  intros H. destruct (st_initialization (DescribeFacts.loose ps) ws g H) as (KS & (_ & V & E & _) & _).
  assert (CH : forall a b, In b (ckids (g_edges g) a) -> is_elem g a = true -> exists la lb, lv g a la /\ lv g b lb /\ child_ok la lb).
  { intros a b Hb He. assert (He' := He). apply is_elem_node in He' as (na & Hna). destruct (v_kids _ _ _ _ V _ He) as (fams & HP & HF). assert (Hc := Permutation_in _ HP Hb).
    destruct (Fams_in _ _ _ _ _ _ _ _ HF Hc) as (e & fam & Hine & _ & Hfam & Hin). destruct (Fam_level _ _ _ _ _ _ _ _ Hfam Hin) as (nc & Hnc & Hl).
    destruct (child_level _ _ _ _ _ _ _ V Hna Hb) as (H0 & nc' & Hnc' & Elc & _). rewrite Hnc in Hnc'. injection Hnc' as <-. exists (n_level na), (n_level nc). split; [exists na; auto|]. split; [exists nc; auto|]. rewrite Elc, Hl.
    destruct (v_prov _ _ _ _ V _ _ _ Hna Hine) as [[-> ->]|(e0 & _ & <- & Hk)]; [exact I|now apply kids_ok]. }
  constructor.
  - intros a b t Hab Ht. destruct (w_child _ E _ _ _ Hab Ht) as [He _]. apply CH; [|exact He]. apply ckids_In. eauto.
  - intros a b Hab. destruct (w_ph _ E _ _ Hab) as [(path & n & Hs & Hn & _)|(He & path & c & Hs & _)]; [left|right]; (split; [|]).
    + now exists path.
    + exists (n_level n), n. auto.
    + now apply lv_elem.
    + now exists path.
  - intros a b Hab. destruct (w_der _ E _ _ Hab) as (na & nb & Ha & Hb & Hl & _). exists (n_level na). split; [exists na; auto|exists nb; auto].
  - intros p h c H1 H2 (q & P). destruct (w_ph _ E _ _ H1) as [(_ & n & _ & Hn & _)|(He & _)]; [apply get_node_slot in Hn; congruence|]. apply CH; [exact (w_link _ E _ _ _ He H1 H2)|exact He].
Qed.
(** ** every reference has exactly one parent and one child *)
Definition isPH (e : edge) : bool := etype_eqb (e_typ e) PLACEHOLDER.
Record PU (g : graph) : Prop := {
  pu_nd : NoDup (filter isPH (g_edges g));
  pu_in : forall h, is_ph g h -> exists p, In (p, h, PLACEHOLDER) (g_edges g) /\ forall p', In (p', h, PLACEHOLDER) (g_edges g) -> p' = p;
  pu_out : forall h, is_ph g h -> exists c, In (h, c, PLACEHOLDER) (g_edges g) /\ forall c', In (h, c', PLACEHOLDER) (g_edges g) -> c' = c }.
Lemma isPH_In a b l : In (a, b, PLACEHOLDER) (filter isPH l) <-> In (a, b, PLACEHOLDER) l.
Proof. rewrite filter_In. split; [tauto|]. intros H. split; [exact H|reflexivity]. Qed.
(** a step that leaves the edges of references alone *)
Lemma pu_same g g' : PU g -> (forall h, is_ph g' h -> is_ph g h) -> filter isPH (g_edges g') = filter isPH (g_edges g) -> PU g'.
Proof.
  intros P KP E. assert (X : forall a b, In (a, b, PLACEHOLDER) (g_edges g') <-> In (a, b, PLACEHOLDER) (g_edges g)) by (intros a b; rewrite <- isPH_In, E; apply isPH_In). constructor.
  - rewrite E. apply (pu_nd _ P).
  - intros h Hh. destruct (pu_in _ P h (KP _ Hh)) as (p & H & U). exists p. split; [now apply X|]. intros p' K. now apply U, X.
  - intros h Hh. destruct (pu_out _ P h (KP _ Hh)) as (p & H & U). exists p. split; [now apply X|]. intros p' K. now apply U, X.
Qed.
Lemma nd_flat {A B} (f : A -> list B) (P : A -> bool) l : (forall x, In x l -> NoDup (f x)) -> (forall x z, In x l -> In z (f x) -> P x = true) ->
  (forall x y z, In x l -> In y l -> In z (f x) -> In z (f y) -> x = y) -> NoDup (filter P l) -> NoDup (flat_map f l).
Proof.
  induction l as [|x l IH]; intros H1 H2 H3 H4; cbn; [constructor|]. cbn in H4. assert (K : NoDup (flat_map f l)).
  { apply IH; [intros y Hy; apply H1; now right|intros y z Hy; apply H2; now right|intros y y' z Hy Hy'; apply H3; now right|]. destruct (P x); [now inversion H4|exact H4]. }
  apply NoDup_app_intro; [apply H1; now left|exact K|]. intros z Hz Hz'. apply in_flat_map in Hz' as (y & Hy & Hz'). assert (E := H3 x y z (or_introl eq_refl) (or_intror Hy) Hz Hz'). subst y.
  assert (Px := H2 x z (or_introl eq_refl) Hz). rewrite Px in H4. inversion H4 as [|? ? N _]. apply N, filter_In. auto.
Qed.
Lemma filter_flat {A B} (f : A -> list B) (q : B -> bool) l : filter q (flat_map f l) = flat_map (fun x => filter q (f x)) l.
Proof. induction l as [|x l IH]; cbn; [reflexivity|]. now rewrite filter_app, IH. Qed.
Lemma desc_irr g b : WF g -> Desc g b b -> False.
Proof.
  intros W H. apply clos_trans_t1n in H. assert (L : forall x y, clos_trans_1n nat (NStep g) x y -> exists z, Step g x z /\ Reach g z y).
  { intros x y K. induction K as [x y (t & K & _)|x y z (t & K & _) _ (u & I1 & I2)]; [exists y; split; [exists t; exact K|apply rt_refl]|]. exists y. split; [exists t; exact K|]. eapply rt_trans; [apply rt_step; exact I1|exact I2]. }
  destruct (L _ _ H) as (z & H1 & H2). exact (wf_acyclic _ W _ _ H1 H2).
Qed.
Lemma filter_perm {A} (p : A -> bool) l l' : Permutation l l' -> Permutation (filter p l) (filter p l').
Proof. induction 1 as [|x l l' H IH|x y l|l1 l2 l3 H1 I1 H2 I2]; cbn; [constructor|destruct (p x); auto|destruct (p x), (p y); try apply perm_swap; reflexivity|etransitivity; eauto]. Qed.
Section Copy2.
  Context (g : graph) (b i : nat) (g1 : graph) (m : list (nat * nat)) (W : WF g) (C : CE g) (U : PU g) (R : Replicated g b i g1 m) (l0 : level) (Hb : lv g b l0) (Hi : lv g i l0).
  Let inj := cp_inj g b i g1 m R.
  Lemma m_fun j k k' : In (j, k) m -> In (j, k') m -> k = k'.
  Proof.
    intros H K. assert (N := rp_fun _ _ _ _ _ R). revert H K N. generalize m. intros l. induction l as [|[x y] l IH]; intros H K N; [destruct H|]. cbn in N. inversion N as [|? ? N1 N2]. subst.
    destruct H as [E|H], K as [E'|K].
    - congruence.
    - injection E as -> ->. exfalso. apply N1. apply in_map_iff. now exists (j, k').
    - injection E' as -> ->. exfalso. apply N1. apply in_map_iff. now exists (j, k).
    - auto.
  Qed.
  Lemma assoc_m x c : assoc m x = Some c -> In (x, c) m.
  Proof. apply assoc_In. Qed.
  Lemma nd_sub (p : edge -> bool) : NoDup (filter isPH (filter p (g_edges g))).
  Proof.
    assert (N := pu_nd _ U). revert N. generalize (g_edges g). intros l. induction l as [|e l IH]; intros N; [constructor|]. cbn in N. cbn. destruct (isPH e) eqn:E.
    - inversion N as [|? ? N1 N2]. destruct (p e); [|auto]. cbn. rewrite E. constructor; [|auto]. intros HH. apply N1. apply filter_In in HH as [HH _]. apply filter_In in HH as [HH _]. apply filter_In. auto.
    - destruct (p e); [cbn; rewrite E|]; auto.
  Qed.
  Lemma ph_eta e : isPH e = true -> e = (e_src e, e_dst e, PLACEHOLDER).
  Proof. unfold isPH. destruct e as [[a c] t]. cbn. destruct t; try discriminate. reflexivity. Qed.
  Lemma nd_copied ij : In ij m -> NoDup (filter isPH (copied g m ij)).
  Proof.
    destruct ij as [j k]. intros Hm. unfold copied. rewrite filter_app. replace (filter isPH (flat_map _ (in_edges g j))) with (@nil edge).
    2:{ symmetry. rewrite filter_flat. induction (in_edges g j) as [|e l IH]; [reflexivity|]. cbn. destruct (etype_eqb (e_typ e) DERIVE); exact IH. }
    rewrite app_nil_r, filter_flat. apply (nd_flat _ isPH).
    - intros e _. destruct (assoc m (e_dst e)); cbn; [|constructor]. destruct (isPH _); repeat constructor; intros [].
    - intros e z _ Hz. destruct (assoc m (e_dst e)); cbn in Hz; [|destruct Hz]. unfold isPH in *. cbn in Hz. destruct (etype_eqb (e_typ e) PLACEHOLDER) eqn:E; [reflexivity|destruct Hz].
    - intros e e' z He He' Hz Hz'. destruct (assoc m (e_dst e)) as [c|] eqn:Ea; cbn in Hz; [|destruct Hz]. destruct (assoc m (e_dst e')) as [c'|] eqn:Ea'; cbn in Hz'; [|destruct Hz'].
      apply filter_In in He as [He Hs]; apply filter_In in He' as [He' Hs']. apply Nat.eqb_eq in Hs, Hs'.
      destruct (isPH (k, c, e_typ e)); [|destruct Hz]. destruct (isPH (k, c', e_typ e')); [|destruct Hz']. destruct Hz as [<-|[]]. destruct Hz' as [E|[]]. injection E as <- E.
      apply assoc_m in Ea, Ea'. assert (D := inj _ _ _ Ea Ea'). rewrite (edge_eta e), (edge_eta e'). congruence.
    - unfold out_edges. apply nd_sub.
  Qed.
  Lemma nd_attached : NoDup (filter isPH (attached g b i m)).
  Proof.
    unfold attached. rewrite filter_flat.
    assert (K : forall e z, In e (out_edges g b) -> In z (filter isPH (match assoc m (e_dst e) with Some c => [(i, c, attach_type g b (e_dst e))] | None => [] end)) -> isPH e = true /\ e_src e = b /\ exists c, In (e_dst e, c) m /\ z = (i, c, attach_type g b (e_dst e))).
    { intros e z He Hz. apply filter_In in He as [He Hs]. apply Nat.eqb_eq in Hs. destruct (assoc m (e_dst e)) as [c|] eqn:Ea; cbn in Hz; [|destruct Hz]. apply assoc_m in Ea. destruct (isPH (i, c, attach_type g b (e_dst e))) eqn:Et; [|destruct Hz]. destruct Hz as [<-|[]].
      split; [|split; [exact Hs|exists c; auto]]. destruct e as [[x y] t]. cbn in *. subst x. destruct (attach_kind g b C l0 Hb y t He (cp_desc _ _ _ _ _ R _ _ Ea)) as [(Ee & _)|(_ & -> & _)]; [|reflexivity].
      unfold attach_type in Et. rewrite Ee in Et. destruct (match get_node g b with Some n => n_done n | None => false end) in Et; discriminate Et. }
    apply (nd_flat _ isPH).
    - intros e _. destruct (assoc m (e_dst e)); cbn; [|constructor]. destruct (isPH _); repeat constructor; intros [].
    - intros e z He Hz. exact (proj1 (K e z He Hz)).
    - intros e e' z He He' Hz Hz'. destruct (K e z He Hz) as (P1 & S1 & c & M1 & ->). destruct (K e' _ He' Hz') as (P2 & S2 & c' & M2 & E). injection E as <- _. rewrite (ph_eta e P1), (ph_eta e' P2). rewrite (inj _ _ _ M1 M2). congruence.
    - unfold out_edges. apply nd_sub.
  Qed.
  Lemma pu_copy : PU g1.
  Proof.
    destruct (rp_edges _ _ _ _ _ R) as (new & He & Hnew).
    assert (NEW : forall x y, In (x, y, PLACEHOLDER) new -> exists k, In (k, y) m).
    { intros x y H. apply Hnew in H as [(_ & c & _ & Hc & _)|[(? & _ & _ & E)|(_ & c & _ & _ & Hc & _)]]; [eauto|discriminate|eauto]. }
    assert (OLD : forall h, is_ph g1 h -> is_ph g h \/ exists k, In (k, h) m /\ is_ph g k).
    { intros h (q & Hq). destruct (rp_only _ _ _ _ _ R h ltac:(congruence)) as [Ho|Hm].
      - left. destruct (get_slot g h) as [s|] eqn:Es; [|congruence]. assert (E := rp_keeps _ _ _ _ _ R h s Es). exists q. congruence.
      - right. apply in_map_iff in Hm as ((k & h') & E & Hm). cbn in E. subst h'. exists k. split; [exact Hm|]. apply (cp_ph_new _ _ _ _ _ R _ _ Hm). now exists q. }
    assert (SO : forall h, is_ph g h -> forall k, ~ In (k, h) m) by (intros h (q & Hq) k Hk; assert (F := cp_fresh _ _ _ _ _ R _ _ Hk); congruence).
    assert (Hi1 := cp_old _ _ _ _ _ R _ _ Hi).
    constructor.
    - destruct (rp_perm _ _ _ _ _ R) as (new' & He' & HP). replace new' with new in * by (rewrite He in He'; exact (app_inv_tail _ _ _ He')). clear He' new'. rewrite He, filter_app. apply NoDup_app_intro; [|apply (pu_nd _ U)|].
      + apply (Permutation_NoDup (l := filter isPH (flat_map (copied g m) m ++ attached g b i m))); [apply filter_perm; now symmetry|]. rewrite filter_app, filter_flat. apply NoDup_app_intro; [|exact nd_attached|].
        * apply (nd_flat _ (fun _ => true)); [exact nd_copied|reflexivity| |].
          -- intros [j k] [j' k'] z Hx Hy Hz Hz'. assert (S : forall j k, In z (filter isPH (copied g m (j, k))) -> e_src z = k).
             { intros u v Hu. unfold copied in Hu. rewrite filter_app in Hu. apply in_app_iff in Hu as [Hu|Hu]; apply filter_In in Hu as [Hu Ht]; apply in_flat_map in Hu as (e & _ & Hu).
               - destruct (assoc m (e_dst e)); [|destruct Hu]. destruct Hu as [<-|[]]. reflexivity.
               - destruct (etype_eqb (e_typ e) DERIVE); [|destruct Hu]. destruct Hu as [<-|[]]. discriminate Ht. }
             assert (E1 := S _ _ Hz). assert (E2 := S _ _ Hz'). assert (E : k' = k) by congruence. rewrite E in *. now rewrite (inj _ _ _ Hx Hy).
          -- replace (filter (fun _ => true) m) with m; [apply (NoDup_map_inv fst), (rp_fun _ _ _ _ _ R)|]. clear. induction m as [|x l IH]; [reflexivity|]. cbn. now rewrite <- IH.
        * intros z Hz Hz'. apply filter_In in Hz' as [Hz' _]. apply in_flat_map in Hz' as (e & _ & Hz'). destruct (assoc m (e_dst e)); [|destruct Hz']. destruct Hz' as [<-|[]]. apply in_flat_map in Hz as ((j & k) & Hm & Hz). apply filter_In in Hz as [Hz Ht].
          unfold copied in Hz. apply in_app_iff in Hz as [Hz|Hz]; apply in_flat_map in Hz as (e' & _ & Hz).
          -- destruct (assoc m (e_dst e')); [|destruct Hz]. destruct Hz as [E|[]]. injection E as -> _ _. exact (lv_slot _ _ _ Hi (cp_fresh _ _ _ _ _ R _ _ Hm)).
          -- destruct (etype_eqb (e_typ e') DERIVE); [|destruct Hz]. destruct Hz as [E|[]]. rewrite <- E in Ht. discriminate Ht.
      + intros z Hz Hz'. apply filter_In in Hz as [Hz Ht], Hz' as [Hz' _]. rewrite (ph_eta z Ht) in Hz, Hz'. destruct (NEW _ _ Hz) as (k & Hk). exact (proj2 (wf_edge _ W _ _ _ Hz') (cp_fresh _ _ _ _ _ R _ _ Hk)).
    - intros h Hh. destruct (OLD h Hh) as [Ho|(k & Hk & Pk)].
      + destruct (pu_in _ U h Ho) as (p & H & Un). exists p. split; [rewrite He; apply in_app_iff; now right|]. intros p' H'. rewrite He in H'. apply in_app_iff in H' as [H'|H']; [|auto]. destruct (NEW _ _ H') as (k & Hk). destruct (SO _ Ho _ Hk).
      + destruct (pu_in _ U k Pk) as (p & H & Un). assert (D := cp_desc _ _ _ _ _ R _ _ Hk).
        assert (CASE : p = b \/ Desc g b p).
        { apply clos_trans_tn1 in D. assert (L : forall q, NStep g q k -> q = p). { intros q (t & Hq & Ht). destruct (is_child t) eqn:Et; [destruct (ce_child _ C _ _ _ Hq Et) as (la & lb & _ & Hl & _); destruct (lv_ph _ _ _ Hl Pk)|]. destruct t; try discriminate Et; [auto|congruence]. }
          inversion D as [y E|q y E K]; subst; [left; symmetry; now apply L|right]. rewrite <- (L _ E). now apply clos_tn1_trans. }
        assert (AK : forall t0, In (b, k, t0) (g_edges g) -> t0 = PLACEHOLDER /\ attach_type g b k = PLACEHOLDER).
        { intros t0 Ht. destruct (attach_kind g b C l0 Hb k t0 Ht D) as [(Ee & _)|(Ee & -> & _)]; [apply lv_elem in Ee as (l & Ee); destruct (lv_ph _ _ _ Ee Pk)|]. split; [reflexivity|]. unfold attach_type. now rewrite Ee. }
        destruct CASE as [->|Dp].
        * exists i. split; [rewrite He; apply in_app_iff; left; apply Hnew; right; right; split; [reflexivity|]; exists k, PLACEHOLDER; split; [exact H|split; [exact Hk|symmetry; exact (proj2 (AK _ H))]]|].
          intros p' H'. rewrite He in H'. apply in_app_iff in H' as [H'|H']; [|destruct (proj2 (wf_edge _ W _ _ _ H') (cp_fresh _ _ _ _ _ R _ _ Hk))].
          apply Hnew in H' as [(j & c & Hj & Hc & H')|[(? & _ & _ & E)|(-> & _)]]; [|discriminate|reflexivity]. rewrite (inj _ _ _ Hc Hk) in H'. apply Un in H'. subst j. destruct (desc_irr _ _ W (cp_desc _ _ _ _ _ R _ _ Hj)).
        * apply (rp_dom _ _ _ _ _ R) in Dp. apply in_map_iff in Dp as ((p0 & p1) & E & Hp). cbn in E. subst p0. exists p1. split; [rewrite He; apply in_app_iff; left; apply Hnew; left; now exists p, k|].
          intros p' H'. rewrite He in H'. apply in_app_iff in H' as [H'|H']; [|destruct (proj2 (wf_edge _ W _ _ _ H') (cp_fresh _ _ _ _ _ R _ _ Hk))].
          apply Hnew in H' as [(j & c & Hj & Hc & H')|[(? & _ & _ & E)|(-> & c & t0 & H' & Hc & _)]]; [|discriminate|].
          -- rewrite (inj _ _ _ Hc Hk) in H'. apply Un in H'. subst j. exact (m_fun _ _ _ Hj Hp).
          -- rewrite (inj _ _ _ Hc Hk) in H'. destruct (AK _ H') as [-> _]. apply Un in H'. subst p. destruct (desc_irr _ _ W (cp_desc _ _ _ _ _ R _ _ Hp)).
    - intros h Hh. destruct (OLD h Hh) as [Ho|(k & Hk & Pk)].
      + destruct (pu_out _ U h Ho) as (c & H & Un). exists c. split; [rewrite He; apply in_app_iff; now right|]. intros c' H'. rewrite He in H'. apply in_app_iff in H' as [H'|H']; [|auto].
        apply Hnew in H' as [(j & c0 & Hj & _)|[(? & _ & _ & E)|(-> & _)]]; [destruct (SO _ Ho _ Hj)|discriminate|destruct (lv_ph _ _ _ Hi Ho)].
      + destruct (pu_out _ U k Pk) as (c & H & Un). assert (D : Desc g b c) by (eapply t_trans; [exact (cp_desc _ _ _ _ _ R _ _ Hk)|apply t_step; exists PLACEHOLDER; split; [exact H|discriminate]]).
        apply (rp_dom _ _ _ _ _ R) in D. apply in_map_iff in D as ((c0 & c1) & E & Hc). cbn in E. subst c0. exists c1. split; [rewrite He; apply in_app_iff; left; apply Hnew; left; now exists k, c|].
        intros c' H'. rewrite He in H'. apply in_app_iff in H' as [H'|H']; [|destruct (proj1 (wf_edge _ W _ _ _ H') (cp_fresh _ _ _ _ _ R _ _ Hk))].
        apply Hnew in H' as [(j & c0 & Hj & Hc0 & H')|[(? & _ & _ & E)|(-> & _)]]; [|discriminate|destruct (lv_ph _ _ _ Hi1 Hh)]. rewrite (inj _ _ _ Hj Hk) in H'. apply Un in H'. subst c0. exact (m_fun _ _ _ Hc0 Hc).
  Qed.
End Copy2.
Lemma fl_remove p c l : ~ In (p, c, PLACEHOLDER) l -> filter isPH (remove_first p c l) = filter isPH l.
Proof.
  induction l as [|e l IH]; intros H; [reflexivity|]. cbn [remove_first]. destruct (Nat.eqb (e_src e) p && Nat.eqb (e_dst e) c) eqn:E.
  - apply andb_prop in E as [E1 E2]. apply Nat.eqb_eq in E1, E2. cbn [filter]. destruct (isPH e) eqn:Ep; [|reflexivity]. exfalso. apply H. left. rewrite (ph_eta e Ep). congruence.
  - cbn [filter]. rewrite IH; [reflexivity|]. intros K. apply H. now right.
Qed.
Lemma fl_update p c l : ~ In (p, c, PLACEHOLDER) l -> filter isPH (update_first p c CHILD_RESOLVED l) = filter isPH l.
Proof.
  induction l as [|e l IH]; intros H; [reflexivity|]. cbn [update_first]. destruct (Nat.eqb (e_src e) p && Nat.eqb (e_dst e) c) eqn:E.
  - apply andb_prop in E as [E1 E2]. apply Nat.eqb_eq in E1, E2. cbn [filter]. destruct (isPH e) eqn:Ep; [|reflexivity]. exfalso. apply H. left. rewrite (ph_eta e Ep). congruence.
  - cbn [filter]. rewrite IH; [reflexivity|]. intros K. apply H. now right.
Qed.
Lemma fl_resolved i cs : forall l, (forall c, In c cs -> ~ In (i, c, PLACEHOLDER) l) -> filter isPH (set_resolved l i cs) = filter isPH l.
Proof.
  unfold set_resolved. induction cs as [|c cs IH]; intros l H; [reflexivity|]. cbn. assert (E := fl_update i c l (H c (or_introl eq_refl))). rewrite IH; [exact E|]. intros c' Hc' K. apply (H c' (or_intror Hc')). apply isPH_In. rewrite <- E. now apply isPH_In.
Qed.
Lemma no_ph_edge g a b la lb : CE g -> lv g a la -> lv g b lb -> ~ In (a, b, PLACEHOLDER) (g_edges g).
Proof. intros C Ha Hb H. destruct (ce_ph _ C _ _ H) as [(P & _)|(_ & P)]; [exact (lv_ph _ _ _ Ha P)|exact (lv_ph _ _ _ Hb P)]. Qed.
Lemma pu_remove_edge g b i l : CE g -> PU g -> lv g b l -> lv g i l -> PU (remove_edge g b i).
Proof. intros C P Hb Hi. apply (pu_same g); [exact P|auto|]. cbn [remove_edge g_edges]. apply fl_remove. exact (no_ph_edge _ _ _ _ _ C Hb Hi). Qed.
Lemma pu_prepared g i base g1 : WF g -> CE g -> PU g -> Prepared g i base g1 -> (forall b, base = Some b -> exists l, lv g b l /\ lv g i l) -> PU g1.
Proof.
  intros W C P H HB. destruct base as [b|]; cbn in H; [|now subst]. destruct H as (m & R). destruct (HB b eq_refl) as (l & Hb & Hi).
  apply (pu_copy (remove_edge g b i) b i g1 m) with (l0 := l); auto; [now apply WF_remove_edge|now apply ce_remove_edge|exact (pu_remove_edge _ _ _ _ C P Hb Hi)].
Qed.
Lemma set_ph g i n n' h : get_node g i = Some n -> is_ph (set_node g i n') h <-> is_ph g h.
Proof.
  intros Hn. unfold is_ph. rewrite (set_node_slot _ _ _ _ Hn). destruct (Nat.eqb_spec i h) as [->|_]; [|tauto]. apply get_node_slot in Hn. rewrite Hn. split; intros (p & E); discriminate.
Qed.
Lemma pu_set g i n n' : PU g -> get_node g i = Some n -> PU (set_node g i n').
Proof. intros P Hn. apply (pu_same g); [exact P|intros h; now apply (set_ph _ _ _ _ _ Hn)|reflexivity]. Qed.
Lemma pu_update g i base v t ws g' n : WF g -> CE g -> PU g -> get_node g i = Some n -> (forall b, base = Some b -> exists l, lv g b l /\ lv g i l) -> update_node g i base v t = (ws, Ok g') -> PU g'.
Proof.
  intros W C P Hn HB H. apply (update_node_spec _ _ _ _ _ _ _ n W Hn) in H as (g1 & HP & _ & W' & Hs & He & _). assert (C1 := ce_prepared _ _ _ _ W C HP HB). assert (P1 := pu_prepared _ _ _ _ W C P HP HB).
  destruct (prepared_keeps _ _ _ _ W HP) as [W1 K1]. assert (Hn1 := ReplicateFacts.keeps_node _ _ _ _ K1 Hn). set (n' := mk_node _ _ _ _ _ _) in *.
  assert (C2 : CE (set_node g1 i n')) by (apply (ce_set g1 i n n' C1 Hn1); reflexivity). apply (pu_same g1); [exact P1| |].
  - intros h (p & Hh). rewrite Hs in Hh. destruct (Nat.eqb i h); [discriminate|]. now exists p.
  - rewrite He. apply fl_resolved. intros c Hc. apply element_childrens_In in Hc as (t' & Hc & _ & Ec). apply lv_elem in Ec as (lc & Ec).
    assert (Hi : lv (set_node g1 i n') i (n_level n')) by (exists n'; split; [rewrite (set_node_node _ _ _ _ _ Hn1), Nat.eqb_refl; reflexivity|reflexivity]). exact (no_ph_edge _ _ _ _ _ C2 Hi Ec).
Qed.
Lemma fl_none l : (forall e, In e l -> e_typ e <> PLACEHOLDER) -> filter isPH l = [].
Proof. induction l as [|e l IH]; intros H; [reflexivity|]. cbn. assert (K := H e (or_introl eq_refl)). unfold isPH at 1. destruct (e_typ e); cbn; try congruence; apply IH; intros x Hx; apply H; now right. Qed.
Lemma pu_process g i ws g' : WF g -> CE g -> PU g -> process_node g i = (ws, Ok g') -> PU g'.
Proof.
  intros W C P H. apply process_node_inv in H as (n & base & bv & Hn & _ & HB0 & H).
  assert (HB : forall b, base = Some b -> exists l, lv g b l /\ lv g i l).
  { intros b Eb. destruct HB0 as [(_ & -> & _)|(path & b' & nb & _ & Eb' & _ & Hnb & Hl & _)]; [discriminate|]. rewrite Eb in Eb'. injection Eb' as <-. exists (n_level n). split; [exists nb; auto|exists n; auto]. }
  destruct H as [(e & _ & w & H)|(_ & w & H)].
  - apply (process_evc_spec _ _ _ _ _ n W Hn) in H as [(_ & W' & ->)|(b & nb & e' & g1 & Eb & _ & _ & (m & R) & W' & Hn1 & ->)].
    + exact (pu_set _ _ _ _ P Hn).
    + set (n1 := mk_node (n_name n) (n_level n) (n_done n) (n_parsed nb) (n_processed n) (n_tmpl n)) in *. apply (pu_set g1 i n1 _); [|exact Hn1]. assert (W0 : WF (set_node g i n1)) by (eapply WF_set_node; eassumption).
      assert (C0 : CE (set_node g i n1)) by (apply (ce_set g i n n1 C Hn); reflexivity). assert (P0 := pu_set g i n n1 P Hn).
      apply (pu_prepared (set_node g i n1) i (Some b) g1 W0 C0 P0 (ex_intro _ m R)). intros c Ec. injection Ec as <-.
      destruct (HB b Eb) as (l & (nb' & Hnb & Lb) & (n0 & Hn0 & Li)). exists l. unfold lv. rewrite !(set_node_node _ _ _ _ _ Hn), Nat.eqb_refl. split.
      * destruct (Nat.eqb_spec i b) as [->|_]; [exists n1; split; [reflexivity|cbn; congruence]|exists nb'; auto].
      * exists n1. split; [reflexivity|cbn; congruence].
  - apply process_dimable_inv in H as (w1 & is_dim & names & displays & w' & v & vs & _ & _ & w'' & H). destruct is_dim.
    + apply (update_dim_node_spec _ _ _ _ _ _ _ n W Hn) in H as (g1 & xs & (w2 & H1) & W' & K & _ & Hxs & _ & Hx & Hj & He). assert (P1 := pu_update _ _ _ _ _ _ _ _ W C P Hn HB H1). apply (pu_same g1); [exact P1| |].
      * intros h (p & Hh). destruct (in_dec Nat.eq_dec h (map i_idx xs)) as [Hin|Hin]; [apply in_map_iff in Hin as (x & <- & Hin); destruct (Hx x Hin) as [_ E]; rewrite Hh in E; discriminate E|]. rewrite (Hj h Hin) in Hh. now exists p.
      * rewrite He, !filter_app. do 2 (rewrite fl_none by (intros e Hin; apply in_rev, in_map_iff in Hin as (z & <- & _); discriminate)). reflexivity.
    + exact (pu_update _ _ _ _ _ _ _ _ W C P Hn HB H).
Qed.
Lemma pu_nodes l : forall g ws g', WF g -> CE g -> PU g -> foldM process_node g l = (ws, Ok g') -> PU g'.
Proof.
  induction l as [|i l IH]; intros g ws g' W C P H; cbn [foldM] in H; [apply ret_ok in H as [<- _]; exact P|]. apply bind_ok in H as (w1 & g1 & w2 & H1 & H2 & _).
  exact (IH _ _ _ (process_node_WF _ _ _ _ W H1) (ce_process _ _ _ _ W C H1) (pu_process _ _ _ _ W C P H1) H2).
Qed.
Lemma nd_filter {A} (p : A -> bool) (l : list A) : NoDup l -> NoDup (filter p l).
Proof. apply NoDup_filter. Qed.
Lemma filter_comm {A} (p q : A -> bool) l : filter p (filter q l) = filter q (filter p l).
Proof. induction l as [|x l IH]; [reflexivity|]. cbn. destruct (p x) eqn:E1, (q x) eqn:E2; cbn; rewrite ?E1, ?E2, IH; reflexivity. Qed.
Lemma pu_resolve g h ws g' : CE g -> PU g -> resolve_placeholder g h = (ws, Ok g') -> PU g'.
Proof.
  intros C P H. apply resolve_ph_inv in H as [->|(parent & pn & child & n & path & b & _ & _ & _ & _ & Hp & Hc & HP & _ & ->)]; [exact P|]. set (keep := fun e => negb (Nat.eqb (e_src e) h) && negb (Nat.eqb (e_dst e) h)).
  assert (SUB : forall a c, In (a, c, PLACEHOLDER) ((b, child, DERIVE) :: g_edges (remove_placeholder g h)) <-> In (a, c, PLACEHOLDER) (g_edges g) /\ a <> h /\ c <> h).
  { intros a c. cbn [In remove_placeholder g_edges]. rewrite filter_In. cbn. rewrite andb_true_iff, !negb_true_iff, !Nat.eqb_neq. split; [intros [E|E]; [discriminate|tauto]|tauto]. }
  assert (PH : forall x, is_ph (mk_graph (g_slots (remove_placeholder g h)) (g_free (remove_placeholder g h)) ((b, child, DERIVE) :: g_edges (remove_placeholder g h)) (g_phs (remove_placeholder g h))) x -> is_ph g x /\ x <> h).
  { intros x (q & Hx). change (get_slot (remove_placeholder g h) x = Some (NPh q)) in Hx. rewrite (remove_ph_slot _ _ _ Hp) in Hx. destruct (Nat.eqb_spec h x) as [->|Hne]; [discriminate|]. split; [now exists q|congruence]. }
  assert (Hh : is_ph g h) by now exists path. constructor.
  - cbn [g_edges filter]. change (isPH (b, child, DERIVE)) with false. cbn iota. cbn [remove_placeholder g_edges]. fold keep. replace (filter isPH (filter keep (g_edges g))) with (filter keep (filter isPH (g_edges g))); [apply NoDup_filter, (pu_nd _ P)|].
    apply filter_comm.
  - intros x Hx. destruct (PH x Hx) as [Px Ne]. destruct (pu_in _ P x Px) as (p & K & Un). exists p. cbn [g_edges]. rewrite SUB. split.
    + split; [exact K|split; [|exact Ne]]. intros ->. destruct (ce_ph _ C _ _ K) as [(_ & l & Hl)|((l & Hl) & _)]; [exact (lv_ph _ _ _ Hl Px)|exact (lv_ph _ _ _ Hl Hh)].
    + intros p'. rewrite SUB. intros [K' _]. auto.
  - intros x Hx. destruct (PH x Hx) as [Px Ne]. destruct (pu_out _ P x Px) as (p & K & Un). exists p. cbn [g_edges]. rewrite SUB. split.
    + split; [exact K|split; [exact Ne|]]. intros ->. destruct (ce_ph _ C _ _ K) as [(_ & l & Hl)|((l & Hl) & _)]; [exact (lv_ph _ _ _ Hl Hh)|exact (lv_ph _ _ _ Hl Px)].
    + intros p'. rewrite SUB. intros [K' _]. auto.
Qed.
Lemma pu_phs l : forall g ws g', CE g -> PU g -> foldM resolve_placeholder g l = (ws, Ok g') -> PU g'.
Proof.
  induction l as [|h l IH]; intros g ws g' C P H; cbn [foldM] in H; [apply ret_ok in H as [<- _]; exact P|]. apply bind_ok in H as (w1 & g1 & w2 & H1 & H2 & _). exact (IH _ _ _ (ce_resolve _ _ _ _ C H1) (pu_resolve _ _ _ _ C P H1) H2).
Qed.
Lemma nd_local {A} (l : list A) : (forall x, In x l -> exists f, f x = true /\ (length (filter f l) <= 1)%nat) -> NoDup l.
Proof.
  induction l as [|x l IH]; intros H; constructor.
  - intros K. destruct (H x (or_introl eq_refl)) as (f & Hf & L). cbn in L. rewrite Hf in L. cbn in L. assert (In x (filter f l)) by (apply filter_In; auto). destruct (filter f l); [contradiction|cbn in L; lia].
  - apply IH. intros y Hy. destruct (H y (or_intror Hy)) as (f & Hf & L). exists f. split; [exact Hf|]. cbn in L. destruct (f x); cbn in L; lia.
Qed.
Lemma filter_len {A} (p q : A -> bool) l : (length (filter p (filter q l)) <= length (filter p l))%nat.
Proof. induction l as [|x l IH]; cbn; [lia|]. destruct (q x); cbn; destruct (p x); cbn; lia. Qed.
Lemma pu_start ps ws g : initialization ps = (ws, Ok g) -> PU g.
Proof.
  intros H. assert (C := ce_start _ _ _ H). assert (L := proj2 (initialization_ok ps) _ _ H).
  assert (ONE : forall h, is_ph g h -> exists p c, out_edges g h = [(h, c, PLACEHOLDER)] /\ in_edges g h = [(p, h, PLACEHOLDER)]).
  { intros h (q & Hq). destruct (ln_one _ _ L h q Hq) as [(c & _ & Ho) Hi]. destruct (in_dec Nat.eq_dec h []) as [[]|_]. destruct Hi as (p & _ & Hi). eauto. }
  assert (OUT : forall h c, In (h, c, PLACEHOLDER) (g_edges g) -> In (h, c, PLACEHOLDER) (out_edges g h)) by (intros h c K; apply filter_In; split; [exact K|apply Nat.eqb_refl]).
  assert (INN : forall p h, In (p, h, PLACEHOLDER) (g_edges g) -> In (p, h, PLACEHOLDER) (in_edges g h)) by (intros p h K; apply filter_In; split; [exact K|apply Nat.eqb_refl]).
  constructor.
  - apply nd_local. intros [[a b] t] K. apply filter_In in K as [K Et]. unfold isPH in Et. cbn in Et. destruct t; try discriminate Et. destruct (ce_ph _ C _ _ K) as [(P & _)|(_ & P)]; destruct (ONE _ P) as (p & c & Ho & Hi).
    + exists (fun e => Nat.eqb (e_src e) a). split; [apply Nat.eqb_refl|]. etransitivity; [apply filter_len|]. change (filter _ (g_edges g)) with (out_edges g a). rewrite Ho. cbn. lia.
    + exists (fun e => Nat.eqb (e_dst e) b). split; [apply Nat.eqb_refl|]. etransitivity; [apply filter_len|]. change (filter _ (g_edges g)) with (in_edges g b). rewrite Hi. cbn. lia.
  - intros h P. destruct (ONE h P) as (p & c & Ho & Hi). exists p. split.
    + assert (K : In (p, h, PLACEHOLDER) (in_edges g h)) by (rewrite Hi; now left). now apply filter_In in K.
    + intros p' K. apply INN in K. rewrite Hi in K. destruct K as [E|[]]. congruence.
  - intros h P. destruct (ONE h P) as (p & c & Ho & Hi). exists c. split.
    + assert (K : In (h, c, PLACEHOLDER) (out_edges g h)) by (rewrite Ho; now left). now apply filter_In in K.
    + intros p' K. apply OUT in K. rewrite Ho in K. destruct K as [E|[]]. congruence.
Qed.
Lemma filter_and {A} (p q : A -> bool) l : filter (fun x => p x && q x) l = filter p (filter q l).
Proof. induction l as [|x l IH]; [reflexivity|]. cbn. destruct (q x); cbn; [rewrite andb_true_r|rewrite andb_false_r]; now rewrite IH. Qed.
(** asking for the parent or the child of a reference succeeds *)
Lemma parent_ok g h : CE g -> PU g -> is_ph g h -> ok (get_placeholder_parent g h).
Proof.
  intros C P Hh. destruct (pu_in _ P h Hh) as (p & K & Un). unfold get_placeholder_parent. replace (filter _ (in_edges g h)) with [(p, h, PLACEHOLDER)]; [apply ok_ret|]. symmetry.
  assert (Ep : is_elem g p = true) by (destruct (ce_ph _ C _ _ K) as [(_ & l & Hl)|((l & Hl) & _)]; [destruct (lv_ph _ _ _ Hl Hh)|exact (elem_lv _ _ _ Hl)]).
  apply nodup_one.
  - rewrite filter_and. apply NoDup_filter. exact (nd_sub g P (fun e => Nat.eqb (e_dst e) h)).
  - intros [[a c] t]. rewrite filter_In. cbn. unfold in_edges. rewrite filter_In. cbn. split.
    + intros [[K1 K2] K3]. apply Nat.eqb_eq in K2. subst c. apply andb_prop in K3 as [_ K3]. destruct t; try discriminate K3. now rewrite (Un _ K1).
    + intros E. injection E as -> -> ->. rewrite Ep, Nat.eqb_refl. auto.
Qed.
Lemma child_okay g h : CE g -> PU g -> is_ph g h -> ok (get_placeholder_child g h).
Proof.
  intros C P Hh. destruct (pu_out _ P h Hh) as (p & K & Un). unfold get_placeholder_child. replace (filter _ (out_edges g h)) with [(h, p, PLACEHOLDER)]; [apply ok_ret|]. symmetry.
  assert (Ep : is_elem g p = true) by (destruct (ce_ph _ C _ _ K) as [(_ & l & Hl)|((l & Hl) & _)]; [exact (elem_lv _ _ _ Hl)|destruct (lv_ph _ _ _ Hl Hh)]).
  apply nodup_one.
  - rewrite filter_and. apply NoDup_filter. exact (nd_sub g P (fun e => Nat.eqb (e_src e) h)).
  - intros [[a c] t]. rewrite filter_In. cbn. unfold out_edges. rewrite filter_In. cbn. split.
    + intros [[K1 K2] K3]. apply Nat.eqb_eq in K2. subst a. apply andb_prop in K3 as [_ K3]. destruct t; try discriminate K3. now rewrite (Un _ K1).
    + intros E. injection E as -> -> ->. rewrite Ep, Nat.eqb_refl. auto.
Qed.
