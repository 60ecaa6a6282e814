(** * PropsEdges: C64, how the elements are joined in every graph the resolver goes through. *)
From Verif Require Import Base PyStr PyInt Types ElemModel FinalModel ResolveModel ProcessModel GraphFacts ReplicateFacts ResolveWF ResolveInv BuildOk LogListed EdgeFacts DepFacts ErrFacts SpecEdges Samples.

Record Joined (g : graph) : Prop := { jn_wf : WF g; jn_ce : CE g; jn_pu : PU g; jn_nk : NK g; jn_po : PO g }.
Lemma works_joined ps g : Works ps g -> Joined g.
Proof.
  induction 1 as [ws g H|g h ws g' _ [W C U N P] H|g i ws g' _ [W C U N P] H].
  - split; [exact (proj1 (init_grows _ _ _ H))|exact (ce_start _ _ _ H)|exact (pu_start _ _ _ H)|exact (NI_init _ _ PK_closed _ _ _ (fun _ _ => Logic.I) H)|exact (po_start _ _ _ H)].
  - split; [exact (proj1 (resolve_ph_spec _ _ _ _ W H))|exact (ce_resolve _ _ _ _ C H)|exact (pu_resolve _ _ _ _ C U H)|exact (NI_resolve_ph _ _ _ _ _ H N)|exact (po_resolve _ _ _ _ P H)].
  - split; [exact (process_node_WF _ _ _ _ W H)|exact (ce_process _ _ _ _ W C H)|exact (pu_process _ _ _ _ W C U H)|exact (NI_process _ _ PK_closed _ _ _ _ W N H)|].
    exact (po_process _ _ _ _ W C (fun j n Hn => pk_level _ (N j n Hn)) P H).
Qed.
Lemma lv_at g i l : lv g i l -> element_at g i l.
Proof. intros (n & H & K). exists n. split; [now apply get_node_slot|exact K]. Qed.
Lemma child_contains a b : child_ok a b -> In (a, b) contains.
Proof. destruct a, b; cbn; intros []; auto 10. Qed.
Lemma filter_all {A} (p : A -> bool) l : (forall x, In x l -> p x = true) -> filter p l = l.
Proof. induction l as [|x l IH]; intros H; [reflexivity|]. cbn. rewrite (H x (or_introl eq_refl)), IH; [reflexivity|]. intros y Hy. apply H. now right. Qed.
Lemma ph_only g a b t h : CE g -> is_ph g h -> In (a, b, t) (g_edges g) -> a = h \/ b = h -> t = PLACEHOLDER.
Proof.
  intros C Hh H E. destruct (is_child t) eqn:Et.
  - destruct (ce_child _ C _ _ _ H Et) as (la & lb & Ha & Hb & _). destruct E as [-> | ->]; [destruct (lv_ph _ _ _ Ha Hh)|destruct (lv_ph _ _ _ Hb Hh)].
  - destruct t; try discriminate Et; [reflexivity|]. destruct (ce_der _ C _ _ H) as (l & Ha & Hb). destruct E as [-> | ->]; [destruct (lv_ph _ _ _ Ha Hh)|destruct (lv_ph _ _ _ Hb Hh)].
Qed.

Theorem C64_joined : forall ps g, Works ps g ->
  (* a parent and a child: elements of adjacent levels *)
  (forall a b t, In (a, b, t) (g_edges g) -> t = CHILD_UNRESOLVED \/ t = CHILD_RESOLVED -> exists la lb, element_at g a la /\ element_at g b lb /\ In (la, lb) contains) /\
  (* a base and the element derived from it: elements of the same level *)
  (forall a b, In (a, b, DERIVE) (g_edges g) -> exists l, element_at g a l /\ element_at g b l) /\
  (* a reference: one edge from an element, one edge to the element that is waiting, and that element could be a child of the first *)
  (forall h, reference_at g h -> exists p c lp lc, filter (fun e => Nat.eqb (e_dst e) h) (g_edges g) = [(p, h, PLACEHOLDER)] /\ filter (fun e => Nat.eqb (e_src e) h) (g_edges g) = [(h, c, PLACEHOLDER)] /\
     element_at g p lp /\ element_at g c lc /\ In (lp, lc) contains) /\
  (* the other edges of this kind do not exist *)
  (forall a b, In (a, b, PLACEHOLDER) (g_edges g) -> reference_at g a /\ (exists l, element_at g b l) \/ (exists l, element_at g a l) /\ reference_at g b) /\
  (* a peripheral waits for at most one base, and for none when it has its value *)
  (forall j, element_at g j LPeripheral -> let waiting := filter (fun e => Nat.eqb (e_dst e) j && match e_typ e with PLACEHOLDER | DERIVE => true | _ => false end) (g_edges g) in
     (length waiting <= 1)%nat /\ (done_at g j -> waiting = [])).
Proof.
  intros ps g H. destruct (works_joined _ _ H) as [W C U N P]. split; [|split; [|split; [|split]]].
  - intros a b t He Ht. destruct (ce_child _ C _ _ _ He) as (la & lb & Ha & Hb & K); [destruct Ht as [-> | ->]; reflexivity|]. exists la, lb. split; [now apply lv_at|]. split; [now apply lv_at|now apply child_contains].
  - intros a b He. destruct (ce_der _ C _ _ He) as (l & Ha & Hb). exists l. split; now apply lv_at.
  - intros h Hh. destruct (pu_in _ U h Hh) as (p & Kp & Up). destruct (pu_out _ U h Hh) as (c & Kc & Uc). destruct (ce_link _ C _ _ _ Kp Kc Hh) as (lp & lc & Hp & Hc & K). exists p, c, lp, lc.
    split; [|split; [|split; [now apply lv_at|split; [now apply lv_at|now apply child_contains]]]].
    + apply nodup_one.
      * rewrite <- (filter_all isPH (filter _ (g_edges g))); [exact (nd_sub g U (fun e => Nat.eqb (e_dst e) h))|]. intros [[a b] t] X. apply filter_In in X as [X Y]. cbn in Y. apply Nat.eqb_eq in Y. rewrite (ph_only _ _ _ _ _ C Hh X (or_intror Y)). reflexivity.
      * intros [[a b] t]. rewrite filter_In. cbn. rewrite Nat.eqb_eq. split; [|intros X; injection X as -> -> ->; auto]. intros [X ->]. assert (T := ph_only _ _ _ _ _ C Hh X (or_intror eq_refl)). subst t. now rewrite (Up _ X).
    + apply nodup_one.
      * rewrite <- (filter_all isPH (filter _ (g_edges g))); [exact (nd_sub g U (fun e => Nat.eqb (e_src e) h))|]. intros [[a b] t] X. apply filter_In in X as [X Y]. cbn in Y. apply Nat.eqb_eq in Y. rewrite (ph_only _ _ _ _ _ C Hh X (or_introl Y)). reflexivity.
      * intros [[a b] t]. rewrite filter_In. cbn. rewrite Nat.eqb_eq. split; [|intros X; injection X as -> -> ->; auto]. intros [X ->]. assert (T := ph_only _ _ _ _ _ C Hh X (or_introl eq_refl)). subst t. now rewrite (Uc _ X).
  - intros a b He. destruct (ce_ph _ C _ _ He) as [(Q & l & Hl)|((l & Hl) & Q)]; [left|right]; (split; [|]); try exact Q; exists l; now apply lv_at.
  - intros j (n & Hn & Hl) waiting. apply get_node_slot in Hn. assert (E : length waiting = deps g j).
    { unfold waiting, deps. f_equal. apply filter_ext. intros [[a b] t]. unfold waits. cbn. now destruct t. }
    destruct (P j n Hn Hl) as [K _]. split; [rewrite E; destruct (n_done n); lia|]. intros (m & Hm & Hd). apply get_node_slot in Hm. rewrite Hn in Hm. injection Hm as <-. rewrite Hd in K. destruct waiting; [reflexivity|cbn in E; lia].
Qed.
(** the graphs before and after the rounds are among them *)
Theorem C64_resolver_graphs : forall ps fuel ws g ws' g', initialization ps = (ws, Ok g) -> rounds fuel g [] = (ws', Ok g') -> Works ps g /\ Works ps g'.
Proof.
  intros ps fuel ws g ws' g' H1 H2. assert (A := Wk_start _ _ _ H1). split; [exact A|]. clear H1 ws. revert A H2. generalize (@nil nat) as prev. revert g ws'. induction fuel as [|fuel IH]; intros g ws' prev A H; cbn [rounds] in H; [discriminate H|].
  apply bind_ok in H as (w1 & g1 & w2 & H1 & H & _). assert (A1 : Works ps g1). { eapply (foldM_inv (Works ps)); [|exact A|exact H1]. intros. eapply Wk_resolve; eauto. }
  destruct (topological_sorted g1 (find_processable g1)) as [|n ns]; [apply ret_ok in H as [<- _]; exact A1|].
  apply bind_ok in H as (w3 & u & w4 & _ & H & _). apply bind_ok in H as (w5 & g2 & w6 & H2 & H & _). eapply IH; [|exact H]. eapply (foldM_inv (Works ps)); [|exact A1|exact H2]. intros. eapply Wk_process; eauto.
Qed.
(** the sample: references and derive edges exist at the start and in between *)
Definition count_refs (g : graph) : nat := length (filter (fun s => match s with Some (NPh _) => true | _ => false end) (g_slots g)).
Example C64_nonvacuous :
  match initialization (sdv_periphs sample) with
  | (_, Ok g) => Nat.ltb 0 (count_refs g) = true /\ match rounds 20 g [] with (_, Ok g') => count_refs g' = 0%nat /\ length (filter (fun e => is_child (e_typ e)) (g_edges g')) = length (g_edges g') | _ => False end
  | _ => False
  end.
Proof. vm_compute. repeat split. Qed.
Print Assumptions C64_joined.
Print Assumptions C64_resolver_graphs.
