(** * ResolveWF: what the resolver's functions do to a well-formed graph. *)
From Verif Require Import Base PyStr PyInt Types DimModel EnumModel ElemModel ResolveModel GraphFacts ReplicateFacts SpecSearch SearchFacts.

Lemma add_child_spec g p n t ws r : WF g -> get_slot g p <> None -> add_element_child g p n t = (ws, Ok r) ->
  WF (fst r) /\ keeps g (fst r) /\ get_slot g (snd r) = None /\ get_slot (fst r) (snd r) = Some (NElem n) /\
  (forall j, j <> snd r -> get_slot (fst r) j = get_slot g j) /\ g_edges (fst r) = (p, snd r, t) :: g_edges g /\
  g_phs (fst r) = g_phs g.
Proof.
  intros W Hp H. unfold add_element_child in H. destruct (add_node g (NElem n)) as [g1 i] eqn:Ha.
  assert (Hk := add_node_keeps _ _ _ _ W Ha). assert (W1 := WF_add_elem _ _ _ _ W Ha).
  destruct (add_node_spec _ _ _ _ W Ha) as (He & Hph & Hi & Hi' & Hj & _). minv. cbn [fst snd].
  assert (W2 : WF a). { eapply WF_add_edge_m; [exact W1| | |exact Hm]; [now apply (keeps_exists _ _ _ Hk)|congruence]. }
  apply add_edge_m_eq in Hm as (_ & -> & _). cbn [g_edges g_phs] in *. conj; auto. now rewrite He.
Qed.

Lemma add_ph_spec g path c ws g' : WF g -> get_slot g c <> None -> add_placeholder g path c = (ws, Ok g') ->
  exists i, WF g' /\ keeps g g' /\ get_slot g i = None /\ get_slot g' i = Some (NPh path) /\
  (forall j, j <> i -> get_slot g' j = get_slot g j) /\ g_edges g' = (i, c, PLACEHOLDER) :: g_edges g /\ g_phs g' = g_phs g ++ [i].
Proof.
  intros W Hp H. unfold add_placeholder in H. destruct (add_node g (NPh path)) as [g1 i] eqn:Ha.
  assert (Hk := add_node_keeps _ _ _ _ W Ha). assert (W1 := WF_add_ph _ _ _ _ W Ha).
  destruct (add_node_spec _ _ _ _ W Ha) as (He & Hph & Hi & Hi' & Hj & _). minv.
  apply add_edge_m_eq in Hm as (_ & -> & Hr). cbn [g_slots g_free g_edges g_phs]. exists i.
  assert (W2 := WF_add_edge _ i c PLACEHOLDER W1). cbn [g_slots g_free g_edges g_phs] in W2.
  conj; auto.
  - apply W2; [change (get_slot g1 i <> None); congruence|now apply (keeps_exists _ _ _ Hk)|exact Hr].
  - now rewrite He.
  - now rewrite Hph.
Qed.

Lemma build_element_keeps g p t name lv pa der ws r : WF g -> get_slot g p <> None -> build_element g p t name lv pa der = (ws, Ok r) ->
  WF (fst r) /\ keeps g (fst r) /\ get_slot (fst r) (snd r) = Some (NElem (mk_node name lv false pa None false)).
Proof.
  intros W Hp H. unfold build_element in H. minv. apply add_child_spec in Hm; auto. destruct Hm as (W1 & K1 & _ & Hi & _).
  destruct der as [path|]; minv; auto. cbn [fst snd]. destruct a as [g1 i]. cbn [fst snd] in *.
  apply add_ph_spec in Hm; [|auto|congruence]. destruct Hm as (ph & W2 & K2 & _). conj; auto. eapply keeps_trans; eauto.
Qed.

(** folding a function that only extends the graph *)
Definition grows (g g' : graph) : Prop := WF g' /\ keeps g g'.
Lemma grows_refl g : WF g -> grows g g. Proof. intros W. split; [exact W|apply keeps_refl]. Qed.
Lemma grows_trans g1 g2 g3 : grows g1 g2 -> grows g2 g3 -> grows g1 g3.
Proof. intros [_ K1] [W K2]. split; [exact W|eapply keeps_trans; eauto]. Qed.
Lemma foldM_grows {A} (f : graph -> A -> M graph) l (Q : graph -> Prop) : (forall g g', grows g g' -> Q g -> Q g') ->
  (forall g x ws g', WF g -> Q g -> In x l -> f g x = (ws, Ok g') -> grows g g') ->
  forall g ws g', WF g -> Q g -> foldM f g l = (ws, Ok g') -> grows g g'.
Proof.
  intros HQ. induction l as [|x l IH]; intros Hf g ws g' W Hq H; cbn in H; minv; [now apply grows_refl|].
  assert (G1 := Hf _ _ _ _ W Hq (or_introl eq_refl) Hm). eapply grows_trans; [exact G1|].
  eapply IH; [intros; eapply Hf; eauto; now right|exact (proj1 G1)|eapply HQ; eauto|exact Hk].
Qed.
Lemma foldM_grows_at {A} (f : graph -> A -> M graph) l p :
  (forall g x ws g', WF g -> get_slot g p <> None -> In x l -> f g x = (ws, Ok g') -> grows g g') ->
  forall g ws g', WF g -> get_slot g p <> None -> foldM f g l = (ws, Ok g') -> grows g g'.
Proof. intros Hf. apply foldM_grows; auto. intros g g' [_ K]. now apply keeps_exists. Qed.

Lemma build_evc_grows p g e ws g' : WF g -> get_slot g p <> None -> build_evc p g e = (ws, Ok g') -> grows g g'.
Proof. intros W Hp H. unfold build_evc in H. minv. apply build_element_keeps in Hm; auto. destruct Hm as (? & ? & _). now split. Qed.
Lemma build_field_grows p g f ws g' : WF g -> get_slot g p <> None -> build_field p g f = (ws, Ok g') -> grows g g'.
Proof.
  intros W Hp H. unfold build_field in H. minv. apply build_element_keeps in Hm; auto. destruct Hm as (W1 & K1 & Hi).
  eapply grows_trans; [split; eauto|]. eapply (foldM_grows_at _ _ (snd a)); [|exact W1|congruence|exact Hk].
  intros; eapply build_evc_grows; eauto.
Qed.
Lemma build_rc_grows x : forall p g ws g', WF g -> get_slot g p <> None -> build_rc p g x = (ws, Ok g') -> grows g g'.
Proof.
  induction x as [r|c l IH] using svd_rc_ind'; intros p g ws g' W Hp H; cbn [build_rc] in H; minv;
    (apply build_element_keeps in Hm; auto; destruct Hm as (W1 & K1 & Hi); eapply grows_trans; [split; eauto|];
     eapply (foldM_grows_at _ _ (snd a)); [|exact W1|congruence|exact Hk]).
  - intros; eapply build_field_grows; eauto.
  - rewrite Forall_forall in IH. intros; eapply IH; eauto.
Qed.
Lemma build_per_grows g p ws g' : WF g -> get_slot g 0%nat <> None -> build_per g p = (ws, Ok g') -> grows g g'.
Proof.
  intros W Hp H. unfold build_per in H. minv. apply build_element_keeps in Hm; auto. destruct Hm as (W1 & K1 & Hi).
  eapply grows_trans; [split; eauto|]. eapply (foldM_grows_at _ _ (snd a)); [|exact W1|congruence|exact Hk].
  intros; eapply build_rc_grows; eauto.
Qed.

Definition root_node : node := mk_node (Some "Device"%string) LDevice true PaDev None false.
Definition start_graph : graph := fst (add_node empty_graph (NElem root_node)).
Lemma WF_start : WF start_graph.
Proof. apply (WF_add_elem empty_graph root_node _ 0%nat WF_empty). reflexivity. Qed.
Lemma construct_eq ps : construct_graph ps = foldM build_per start_graph ps.
Proof. reflexivity. Qed.
Lemma construct_grows ps ws g : construct_graph ps = (ws, Ok g) -> grows start_graph g.
Proof.
  rewrite construct_eq. intros H. eapply (foldM_grows_at _ _ 0%nat); [|exact WF_start|discriminate|exact H].
  intros; eapply build_per_grows; eauto.
Qed.

Lemma predecessors_In g i p : In p (predecessors g i) -> exists t, In (p, i, t) (g_edges g).
Proof.
  unfold predecessors. intros H. assert (Hd : forall l seen, In p (dedup seen l) -> In p l).
  { induction l as [|x l IH]; intros seen Hin; cbn in Hin; [easy|]. destruct (mem_nat x seen); [right; eauto|].
    destruct Hin as [->|Hin]; [now left|right; eauto]. }
  apply Hd in H. apply in_map_iff in H as (e & <- & He). apply in_edges_In in He as [He <-]. exists (e_typ e). now rewrite <- edge_eta.
Qed.
Lemma dedup_In l : forall seen x, In x (dedup seen l) <-> In x l /\ ~ In x seen.
Proof.
  induction l as [|y l IH]; intros seen x; cbn [dedup]; [cbn; tauto|].
  destruct (mem_nat y seen) eqn:E.
  - apply mem_nat_In in E. rewrite IH. cbn. split; [tauto|]. intros [[->|H] Hn]; [contradiction|auto].
  - apply mem_nat_nIn in E. cbn. rewrite IH. cbn. destruct (Nat.eq_dec y x) as [->|Hne]; [tauto|]. tauto.
Qed.
Lemma dedup_NoDup l : forall seen, NoDup (dedup seen l).
Proof.
  induction l as [|y l IH]; intros seen; cbn [dedup]; [constructor|]. destruct (mem_nat y seen); auto.
  constructor; auto. rewrite dedup_In. cbn. tauto.
Qed.
Lemma successors_In g i c : In c (successors g i) <-> Step g i c.
Proof. unfold successors. rewrite dedup_In, Step_out. cbn. tauto. Qed.
Lemma successors_NoDup g i : NoDup (successors g i). Proof. apply dedup_NoDup. Qed.

Lemma co_parent_In g ph ws p : get_placeholder_co_parent g ph = (ws, Ok (Some p)) ->
  exists c t, successors g ph = [c] /\ In (p, c, t) (g_edges g) /\ is_elem g p = true.
Proof.
  unfold get_placeholder_co_parent. destruct (successors g ph) as [|c [|d l]] eqn:Es; intros H; minv.
  destruct (filter (is_elem g) (predecessors g c)) as [|q [|q' l]] eqn:Ef; minv; try discriminate.
  assert (Hin : In p (filter (is_elem g) (predecessors g c))) by (rewrite Ef; now left).
  apply filter_In in Hin as [Hin He]. apply predecessors_In in Hin as [t Hin]. eauto.
Qed.
Lemma link_grows g ph ws g' : WF g -> get_slot g ph <> None -> link_placeholder g ph = (ws, Ok g') -> grows g g'.
Proof.
  intros W Hp H. unfold link_placeholder in H. minv. destruct a as [p|]; minv; [|now apply grows_refl].
  apply co_parent_In in Hm as (c & t & _ & Hin & _). apply (wf_edge g W) in Hin as [Hin _]. split.
  - exact (WF_add_edge_m _ _ _ _ _ _ W Hin Hp Hk).
  - apply add_edge_m_eq in Hk as (_ & -> & _). now apply keeps_slots.
Qed.
Lemma init_grows ps ws g : initialization ps = (ws, Ok g) -> grows start_graph g.
Proof.
  unfold initialization. intros H. minv. apply construct_grows in Hm. eapply grows_trans; [exact Hm|]. destruct Hm as [W _].
  eapply (foldM_grows _ (g_phs a) (fun g => forall ph, In ph (g_phs a) -> get_slot g ph <> None)); [| |exact W| |exact Hk].
  - intros g1 g2 [_ K] Hg ph Hp. apply (keeps_exists _ _ _ K). auto.
  - intros g1 x w g2 W1 Hg Hx Hl. eapply link_grows; eauto.
  - intros ph Hp. apply (wf_phs a W) in Hp as [path Hp]. congruence.
Qed.

(** ** placeholders *)
Lemma resolve_ph_inv g ph ws g' : resolve_placeholder g ph = (ws, Ok g') ->
  g' = g \/
  exists parent pn child n path b, get_node g parent = Some pn /\ n_done pn = true /\
    In (parent, ph, PLACEHOLDER) (g_edges g) /\ In (ph, child, PLACEHOLDER) (g_edges g) /\
    get_slot g ph = Some (NPh path) /\ get_node g child = Some n /\
    path_resolving g child (n_level n) path = (ws, Ok (Some b)) /\
    ~ Reach (remove_placeholder g ph) child b /\
    g' = mk_graph (g_slots (remove_placeholder g ph)) (g_free (remove_placeholder g ph))
           ((b, child, DERIVE) :: g_edges (remove_placeholder g ph)) (g_phs (remove_placeholder g ph)).
Proof.
  unfold resolve_placeholder. intros H. apply bind_ok in H as (w1 & parent & w2 & Hp & H & ->).
  destruct (get_node g parent) as [pn|] eqn:Epn; cbn [negb] in H; [|minv; auto].
  destruct (n_done pn) eqn:Ed; cbn [negb] in H; [|minv; auto].
  apply bind_ok in H as (w3 & child & w4 & Hc & H & ->).
  destruct (get_slot g ph) as [[m|path]|] eqn:Es; minv. destruct (get_node g child) as [n|] eqn:En; minv.
  destruct a as [b|]; minv; auto. destruct (add_edge _ _ _ _) as [g1|] eqn:Ha; minv. apply add_edge_eq in Ha as [-> Hr].
  right. exists parent, pn, child, n, path, b. rewrite app_nil_r.
  unfold get_placeholder_parent in Hp. unfold get_placeholder_child in Hc.
  destruct (map e_src _) as [|p0 [|p1 lp]] eqn:E1 in Hp; minv. destruct (map e_dst _) as [|c0 [|c1 lc]] eqn:E2 in Hc; minv.
  assert (H1 : In parent (map e_src (filter (fun e => is_elem g (e_src e) && etype_eqb (e_typ e) PLACEHOLDER) (in_edges g ph)))) by (rewrite E1; now left).
  assert (H2 : In child (map e_dst (filter (fun e => is_elem g (e_dst e) && etype_eqb (e_typ e) PLACEHOLDER) (out_edges g ph)))) by (rewrite E2; now left).
  apply in_map_iff in H1 as (e1 & <- & H1). apply in_map_iff in H2 as (e2 & <- & H2).
  apply filter_In in H1 as [H1 H1']. apply filter_In in H2 as [H2 H2']. apply in_edges_In in H1 as [H1 D1]. apply out_edges_In in H2 as [H2 D2].
  apply andb_prop in H1' as [_ T1]. apply andb_prop in H2' as [_ T2].
  assert (Ht1 : e_typ e1 = PLACEHOLDER) by (destruct (e_typ e1); auto; discriminate).
  assert (Ht2 : e_typ e2 = PLACEHOLDER) by (destruct (e_typ e2); auto; discriminate).
  conj; auto.
  - rewrite <- D1, <- Ht1, <- edge_eta. exact H1.
  - rewrite <- D2, <- Ht2, <- edge_eta at 1. exact H2.
Qed.

Lemma remove_ph_slot g i path : get_slot g i = Some (NPh path) -> forall j, get_slot (remove_placeholder g i) j = if Nat.eqb i j then None else get_slot g j.
Proof.
  intros Hi j. assert (Hlt := get_slot_lt _ _ _ Hi). unfold get_slot, remove_placeholder. cbn [g_slots]. rewrite nth_set_nth.
  destruct (Nat.eqb_spec i j) as [->|]; cbn [andb]; [|reflexivity]. apply Nat.ltb_lt in Hlt. now rewrite Hlt.
Qed.
(** elements are kept (placeholders may disappear) *)
Definition keepsE (g g' : graph) : Prop := forall i n, get_node g i = Some n -> get_node g' i = Some n.
Lemma keepsE_refl g : keepsE g g. Proof. intros i n H; exact H. Qed.
Lemma keepsE_trans g1 g2 g3 : keepsE g1 g2 -> keepsE g2 g3 -> keepsE g1 g3. Proof. intros H1 H2 i n H. auto. Qed.
Lemma keeps_keepsE g g' : keeps g g' -> keepsE g g'. Proof. intros K i n. now apply keeps_node. Qed.

Lemma resolve_ph_spec g ph ws g' : WF g -> resolve_placeholder g ph = (ws, Ok g') ->
  WF g' /\ keepsE g g' /\ (forall i n, get_node g' i = Some n -> get_node g i = Some n).
Proof.
  intros W H. apply resolve_ph_inv in H as [->|(parent & pn & child & n & path & b & Hpn & Hd & He1 & He2 & Hs & Hn & Hpath & Hr & ->)].
  - conj; auto. apply keepsE_refl.
  - assert (W1 := WF_remove_ph _ _ _ W Hs). apply path_resolving_node in Hpath as (Hne & nb & Hb & Hlv).
    assert (Hsl := remove_ph_slot _ _ _ Hs).
    assert (Hgn : forall i m, get_node (remove_placeholder g ph) i = Some m <-> get_node g i = Some m).
    { intros i m. rewrite !get_node_slot, Hsl. destruct (Nat.eqb_spec ph i) as [->|]; [|reflexivity]. rewrite Hs. split; discriminate. }
    conj.
    + apply WF_add_edge; auto.
      * rewrite (proj1 (get_node_slot _ _ _) (proj2 (Hgn _ _) Hb)). discriminate.
      * rewrite (proj1 (get_node_slot _ _ _) (proj2 (Hgn _ _) Hn)). discriminate.
    + intros i m Hm. apply Hgn in Hm. exact Hm.
    + intros i m Hm. now apply Hgn.
Qed.
Lemma resolve_phs_spec g ws g' : WF g -> resolve_placeholders g = (ws, Ok g') ->
  WF g' /\ keepsE g g' /\ (forall i n, get_node g' i = Some n -> get_node g i = Some n).
Proof.
  intros W H. unfold resolve_placeholders in H. eapply (foldM_inv (fun g' => WF g' /\ keepsE g g' /\ (forall i n, get_node g' i = Some n -> get_node g i = Some n))); [| |exact H].
  - intros g1 x w g2 (W1 & K1 & K2) _ Hx. apply resolve_ph_spec in Hx as (W2 & K3 & K4); auto. conj; auto. eapply keepsE_trans; eauto.
  - conj; auto. apply keepsE_refl.
Qed.

(** ** one element *)
Definition set_resolved (es : list edge) (i : nat) (cs : list nat) : list edge :=
  fold_left (fun es c => update_first i c CHILD_RESOLVED es) cs es.
Lemma fold_update_edge i cs : forall g, fold_left (fun g c => update_edge g i c CHILD_RESOLVED) cs g =
  mk_graph (g_slots g) (g_free g) (set_resolved (g_edges g) i cs) (g_phs g).
Proof. induction cs as [|c cs IH]; intros g; cbn [fold_left]; [now destruct g|]. rewrite IH. reflexivity. Qed.
Lemma WF_fold_update i cs : forall g, WF g -> WF (fold_left (fun g c => update_edge g i c CHILD_RESOLVED) cs g).
Proof. induction cs as [|c cs IH]; intros g W; cbn [fold_left]; auto. apply IH. now apply WF_update_edge. Qed.

(** the graph in which the own value is set: the base's children have been copied *)
Definition Prepared (g : graph) (i : nat) (base : option nat) (g1 : graph) : Prop :=
  match base with
  | None => g1 = g
  | Some b => exists m, Replicated (remove_edge g b i) b i g1 m
  end.
Lemma prepared_keeps g i base g1 : WF g -> Prepared g i base g1 -> WF g1 /\ keeps g g1.
Proof.
  intros W H. destruct base as [b|]; cbn in H.
  - destruct H as [m H]. split; [apply (rp_wf _ _ _ _ _ H)|]. intros j s Hj. apply (rp_keeps _ _ _ _ _ H). exact Hj.
  - subst. split; [exact W|apply keeps_refl].
Qed.

Lemma update_node_spec g i base v tmpl ws g' n : WF g -> get_node g i = Some n -> update_node g i base v tmpl = (ws, Ok g') ->
  exists g1, Prepared g i base g1 /\ n_processed n = None /\
  let n' := mk_node (n_name n) (n_level n) true (n_parsed n) (Some v) (tmpl || n_tmpl n) in
  let cs := get_element_childrens (set_node g1 i n') i in
  WF g' /\ (forall j, get_slot g' j = if Nat.eqb i j then Some (NElem n') else get_slot g1 j) /\
  g_edges g' = set_resolved (g_edges g1) i cs /\ g_phs g' = g_phs g1.
Proof.
  intros W Hn H. unfold update_node in H. apply bind_ok in H as (w1 & g1 & w2 & H1 & H & ->).
  assert (HP : Prepared g i base g1).
  { destruct base as [b|]; cbn; [|minv; reflexivity]. eapply replicate_spec; [| |exact H1].
    - now apply WF_remove_edge.
    - apply get_node_slot in Hn. change (get_slot g i <> None). congruence. }
  destruct (prepared_keeps _ _ _ _ W HP) as [W1 K1]. assert (Hn1 := keeps_node _ _ _ _ K1 Hn). rewrite Hn1 in H. minv.
  exists g1. cbn zeta. set (n' := mk_node _ _ _ _ _ _) in *. conj; auto.
  - destruct (n_processed n); [discriminate|reflexivity].
  - apply WF_fold_update. eapply WF_set_node; eauto.
  - intros j. rewrite fold_update_edge. unfold get_slot at 1. cbn [g_slots]. change (nth j (g_slots (set_node g1 i n')) None) with (get_slot (set_node g1 i n') j).
    eapply set_node_slot; eauto.
  - rewrite fold_update_edge. reflexivity.
  - rewrite fold_update_edge. reflexivity.
Qed.

(** ** the instances of a dim element *)
Definition inst_node (n : node) (v : processed) : node := mk_node (Some (processed_name v)) (n_level n) true (n_parsed n) (Some v) false.
Lemma out_edges_eq g g' i new : g_edges g' = new ++ g_edges g -> (forall e, In e new -> e_src e <> i) -> out_edges g' i = out_edges g i.
Proof.
  intros He Hn. unfold out_edges. rewrite He, filter_app. replace (filter (fun e => Nat.eqb (e_src e) i) new) with (@nil edge); [reflexivity|].
  symmetry. clear He. induction new as [|e new IH]; cbn [filter]; [reflexivity|]. destruct (Nat.eqb_spec (e_src e) i) as [E|]; [destruct (Hn e); [now left|exact E]|].
  apply IH. intros; apply Hn; now right.
Qed.
Lemma children_eq g g' i new : WF g -> keeps g g' -> g_edges g' = new ++ g_edges g -> (forall e, In e new -> e_src e <> i) ->
  get_element_childrens g' i = get_element_childrens g i.
Proof.
  intros W K He Hn. unfold get_element_childrens. rewrite (out_edges_eq _ _ _ _ He Hn). f_equal. apply filter_ext_in.
  intros e Hin. f_equal. apply out_edges_In in Hin as [Hin _]. rewrite (edge_eta e) in Hin. apply (wf_edge g W) in Hin as [_ Hin].
  unfold is_elem, get_node. destruct (get_slot g (e_dst e)) as [s|] eqn:E; [|congruence]. now rewrite (K _ _ E).
Qed.

(** what an instance looks like: (parent, its index, its value) *)
Definition inst : Type := (nat * nat * processed)%type.
Definition i_par (x : inst) := fst (fst x).
Definition i_idx (x : inst) := snd (fst x).
Definition i_val (x : inst) := snd x.

Lemma add_instances n parents vs : forall g js ws r, WF g -> (forall p, In p parents -> get_slot g p <> None) ->
  foldM (fun gn parent =>
           foldM (fun gn v =>
             gi <- add_element_child (fst gn) parent
                     (mk_node (Some (processed_name v)) (n_level n) true (n_parsed n) (Some v) false) CHILD_RESOLVED ;;
             ret (fst gi, snd gn ++ [snd gi])) gn vs) (g, js) parents = (ws, Ok r) ->
  exists xs : list inst, WF (fst r) /\ keeps g (fst r) /\ g_phs (fst r) = g_phs g /\ snd r = js ++ map i_idx xs /\
    map (fun x => (i_par x, i_val x)) xs = list_prod parents vs /\ NoDup (map i_idx xs) /\
    (forall x, In x xs -> get_slot g (i_idx x) = None /\ get_slot (fst r) (i_idx x) = Some (NElem (inst_node n (i_val x)))) /\
    (forall j, ~ In j (map i_idx xs) -> get_slot (fst r) j = get_slot g j) /\
    g_edges (fst r) = rev (map (fun x => (i_par x, i_idx x, CHILD_RESOLVED)) xs) ++ g_edges g.
Proof.
  assert (Hinner : forall parent l g js ws r, WF g -> get_slot g parent <> None ->
    foldM (fun gn v =>
             gi <- add_element_child (fst gn) parent
                     (mk_node (Some (processed_name v)) (n_level n) true (n_parsed n) (Some v) false) CHILD_RESOLVED ;;
             ret (fst gi, snd gn ++ [snd gi])) (g, js) l = (ws, Ok r) ->
    exists xs : list inst, WF (fst r) /\ keeps g (fst r) /\ g_phs (fst r) = g_phs g /\ snd r = js ++ map i_idx xs /\
      map (fun x => (i_par x, i_val x)) xs = map (fun v => (parent, v)) l /\ NoDup (map i_idx xs) /\
      (forall x, In x xs -> get_slot g (i_idx x) = None /\ get_slot (fst r) (i_idx x) = Some (NElem (inst_node n (i_val x)))) /\
      (forall j, ~ In j (map i_idx xs) -> get_slot (fst r) j = get_slot g j) /\
      g_edges (fst r) = rev (map (fun x => (i_par x, i_idx x, CHILD_RESOLVED)) xs) ++ g_edges g).
  { intros parent. induction l as [|v l IH]; intros g js ws r W Hp H; cbn in H.
    - minv. exists []. cbn. rewrite app_nil_r. conj; auto; try easy; constructor.
    - apply bind_ok in H as (w1 & r1 & w2 & H1 & H & ->). apply bind_ok in H1 as (w3 & [ga j] & w4 & H1 & H2 & ->). minv.
      apply add_child_spec in H1; auto. cbn [fst snd] in *. destruct H1 as (Wa & Ka & Hj & Hj' & Hoth & He & Hph).
      apply IH in H; auto; [|now apply (keeps_exists _ _ _ Ka)]. destruct H as (xs & Wr & Kr & Hpr & Hsr & Hmr & Hnd & Hx & Ho & Her).
      assert (Hjx : ~ In j (map i_idx xs)).
      { intros Hin. apply in_map_iff in Hin as (x & E & Hin). apply Hx in Hin as [Hin _]. rewrite E in Hin. congruence. }
      exists ((parent, j, v) :: xs). cbn [map i_par i_idx i_val fst snd]. conj.
      + exact Wr.
      + eapply keeps_trans; eauto.
      + now rewrite Hpr.
      + rewrite Hsr, <- app_assoc. reflexivity.
      + now rewrite Hmr.
      + now constructor.
      + intros x [<-|Hin]; [cbn; split; [exact Hj|now apply Kr]|]. split; [|now apply Hx]. apply Hx in Hin as [Hin _].
        destruct (get_slot g (i_idx x)) as [s|] eqn:E; [|reflexivity]. rewrite (Ka _ _ E) in Hin. discriminate.
      + intros k Hk. rewrite Ho, Hoth; [reflexivity|cbn in Hk; intuition congruence|cbn in Hk; intuition congruence].
      + rewrite Her, He. cbn [rev]. rewrite <- app_assoc. reflexivity. }
  induction parents as [|p parents IH]; intros g js ws r W Hp H; cbn in H.
  - minv. exists []. cbn. rewrite app_nil_r. conj; auto; try easy; constructor.
  - apply bind_ok in H as (w1 & [g1 js1] & w2 & H1 & H & ->). apply Hinner in H1; auto; [|apply Hp; now left]. cbn [fst snd] in H1.
    destruct H1 as (xs1 & W1 & K1 & Hp1 & Hs1 & Hm1 & Hnd1 & Hx1 & Ho1 & He1). subst js1.
    apply IH in H; auto; [|intros q Hq; apply (keeps_exists _ _ _ K1); apply Hp; now right].
    destruct H as (xs & Wr & Kr & Hpr & Hsr & Hmr & Hnd & Hx & Ho & Her). exists (xs1 ++ xs). rewrite !map_app. conj.
    + exact Wr.
    + eapply keeps_trans; eauto.
    + now rewrite Hpr.
    + rewrite Hsr, app_assoc. reflexivity.
    + cbn [list_prod]. now rewrite Hm1, Hmr.
    + apply NoDup_app_intro; auto. intros j H1 H2. apply in_map_iff in H1 as (x1 & <- & H1). apply in_map_iff in H2 as (x2 & E & H2).
      apply Hx1 in H1 as [_ H1]. apply Hx in H2 as [H2 _]. congruence.
    + intros x H. apply in_app_or in H as [H|H]; [split; [now apply Hx1|apply Kr; now apply Hx1]|]. split; [|now apply Hx]. apply Hx in H as [H _].
      destruct (get_slot g (i_idx x)) as [s|] eqn:E; [|reflexivity]. rewrite (K1 _ _ E) in H. discriminate.
    + intros j Hj. rewrite in_app_iff in Hj. rewrite Ho, Ho1; tauto.
    + rewrite Her, He1, rev_app_distr, <- app_assoc. reflexivity.
Qed.

Lemma add_instance_edges i js cs : forall g ws g', WF g -> (forall j, In j js -> get_slot g j <> None) -> ~ In i js ->
  get_element_childrens g i = cs ->
  foldM (fun g j => foldM (fun g c => add_edge_m g j c CHILD_RESOLVED) g (get_element_childrens g i)) g js = (ws, Ok g') ->
  WF g' /\ g_slots g' = g_slots g /\ g_free g' = g_free g /\ g_phs g' = g_phs g /\
  g_edges g' = rev (map (fun jc => (fst jc, snd jc, CHILD_RESOLVED)) (list_prod js cs)) ++ g_edges g.
Proof.
  induction js as [|j js IH]; intros g ws g' W Hj Hi Hcs H; cbn in H; minv.
  - cbn. auto 10.
  - assert (Hcx : forall c, In c (get_element_childrens g i) -> get_slot g c <> None).
    { intros c Hc. unfold get_element_childrens in Hc. apply in_map_iff in Hc as (e & <- & Hc). apply filter_In in Hc as [_ Hc].
      apply andb_prop in Hc as [Hc _]. unfold is_elem, get_node in Hc. destruct (get_slot g (e_dst e)); [discriminate|discriminate]. }
    apply (add_edges_spec _ (fun _ => j) (fun c => c) (fun _ _ => CHILD_RESOLVED) (fun _ => true)) in Hm; auto.
    2: { intros c Hc _. split; [apply Hj; now left|]. now apply Hcx. }
    destruct Hm as (Wa & Hs & Hf & Hp & He).
    assert (Hft : forall l : list nat, filter (fun _ => true) l = l) by (induction l; cbn; congruence). rewrite Hft in He.
    assert (Hcs' : get_element_childrens a i = get_element_childrens g i).
    { eapply children_eq; [exact W|now apply keeps_slots|exact He|]. intros e Hin Hsrc. apply in_rev, in_map_iff in Hin as (c & <- & _).
      apply Hi. left. exact Hsrc. }
    apply IH in Hk; auto.
    + destruct Hk as (W' & Hs' & Hf' & Hp' & He'). conj; auto; try congruence. rewrite He', He. cbn [list_prod].
      rewrite map_app, rev_app_distr, map_map. cbn [fst snd]. now rewrite <- app_assoc.
    + intros k Hk'. unfold get_slot. rewrite Hs. apply Hj. now right.
    + intros Hin. apply Hi. now right.
Qed.

Lemma element_parents_In g i p : In p (get_element_parents g i) <-> exists t, In (p, i, t) (g_edges g) /\ is_child t = true /\ is_elem g p = true.
Proof.
  unfold get_element_parents. rewrite in_map_iff. split.
  - intros (e & <- & He). apply filter_In in He as [He Hb]. apply andb_prop in Hb as [H1 H2]. apply in_edges_In in He as [He <-].
    exists (e_typ e). rewrite <- edge_eta. auto.
  - intros (t & Hin & Ht & He). exists (p, i, t). split; [reflexivity|]. apply filter_In. split; [apply in_edges_In; auto|]. cbn. now rewrite He.
Qed.
Lemma element_childrens_In g i c : In c (get_element_childrens g i) <-> exists t, In (i, c, t) (g_edges g) /\ is_child t = true /\ is_elem g c = true.
Proof.
  unfold get_element_childrens. rewrite in_map_iff. split.
  - intros (e & <- & He). apply filter_In in He as [He Hb]. apply andb_prop in Hb as [H1 H2]. apply out_edges_In in He as [He <-].
    exists (e_typ e). rewrite <- edge_eta. auto.
  - intros (t & Hin & Ht & He). exists (i, c, t). split; [reflexivity|]. apply filter_In. split; [apply out_edges_In; auto|]. cbn. now rewrite He.
Qed.

Lemma update_dim_node_spec g i base vs tv ws g' n : WF g -> get_node g i = Some n -> update_dim_node g i base vs tv = (ws, Ok g') ->
  exists g1 (xs : list inst), 
    (exists w, update_node g i base tv true = (w, Ok g1)) /\
    WF g' /\ keeps g1 g' /\ g_phs g' = g_phs g1 /\
    map (fun x => (i_par x, i_val x)) xs = list_prod (get_element_parents g1 i) vs /\ NoDup (map i_idx xs) /\
    (forall x, In x xs -> get_slot g1 (i_idx x) = None /\ get_slot g' (i_idx x) = Some (NElem (inst_node n (i_val x)))) /\
    (forall j, ~ In j (map i_idx xs) -> get_slot g' j = get_slot g1 j) /\
    g_edges g' = rev (map (fun jc => (fst jc, snd jc, CHILD_RESOLVED)) (list_prod (map i_idx xs) (get_element_childrens g1 i)))
                 ++ rev (map (fun x => (i_par x, i_idx x, CHILD_RESOLVED)) xs) ++ g_edges g1.
Proof.
  intros W Hn H. unfold update_dim_node in H. apply bind_ok in H as (w1 & g1 & w2 & H1 & H & ->).
  destruct (update_node_spec _ _ _ _ _ _ _ _ W Hn H1) as (g0 & HP & Hnp & W1 & Hs1 & He1 & Hph1).
  assert (Hn1 : get_node g1 i = Some (mk_node (n_name n) (n_level n) true (n_parsed n) (Some tv) (true || n_tmpl n))).
  { apply get_node_slot. now rewrite Hs1, Nat.eqb_refl. }
  rewrite Hn1 in H. cbn [n_level n_parsed] in H. apply bind_ok in H as (w3 & [g2 js] & w4 & H2 & H & ->).
  apply (add_instances n) in H2; auto.
  2: { intros p Hp. apply element_parents_In in Hp as (t & Hp & _). now apply (wf_edge g1 W1) in Hp. }
  cbn [fst snd app] in *. destruct H2 as (xs & W2 & K2 & Hp2 & Hs2 & Hm2 & Hnd2 & Hx2 & Ho2 & He2). subst js.
  assert (Hi : ~ In i (map i_idx xs)).
  { intros Hin. apply in_map_iff in Hin as (x & E & Hin). apply Hx2 in Hin as [Hin _]. apply get_node_slot in Hn1. congruence. }
  assert (Hch : get_element_childrens g2 i = get_element_childrens g1 i).
  { eapply children_eq; [exact W1|exact K2|exact He2|]. intros e Hin Hsrc. apply in_rev, in_map_iff in Hin as (x & <- & Hin).
    assert (Hp : In (i_par x, i_val x) (list_prod (get_element_parents g1 i) vs)) by (rewrite <- Hm2; now apply (in_map (fun x => (i_par x, i_val x))) in Hin).
    apply in_prod_iff in Hp as [Hp _]. apply element_parents_In in Hp as (t & Hp & _). cbn in Hsrc. rewrite Hsrc in Hp.
    apply (wf_acyclic g1 W1 i i); [now exists t|apply rt_refl]. }
  apply (add_instance_edges _ _ (get_element_childrens g1 i)) in H; auto.
  2: { intros j Hj. apply in_map_iff in Hj as (x & <- & Hx). apply Hx2 in Hx as [_ Hx]. congruence. }
  destruct H as (W' & Hs' & Hf' & Hp' & He'). exists g1, xs. conj; eauto.
  - intros j s Hj. unfold get_slot. rewrite Hs'. now apply K2.
  - congruence.
  - intros x H. split; [apply (Hx2 x H)|]. unfold get_slot. rewrite Hs'. apply (Hx2 x H).
  - intros j Hj. unfold get_slot. rewrite Hs'. now apply Ho2.
  - now rewrite He', He2.
Qed.

(** ** processing one node *)
(** the base used for node [n] at [i], and its value *)
Definition BaseOf (g : graph) (i : nat) (n : node) (base : option nat) (bv : option processed) : Prop :=
  derived_of (n_parsed n) = None /\ base = None /\ bv = None \/
  exists path b nb, derived_of (n_parsed n) = Some path /\ base = Some b /\ get_base_element_node g i = Some b /\ get_node g b = Some nb /\
    n_level nb = n_level n /\ bv = n_processed nb /\ (bv = None -> exists e, n_parsed n = PaEvc e).

Lemma level_eqb_eq a b : level_eqb a b = true -> a = b.
Proof. destruct a, b; try discriminate; reflexivity. Qed.

Lemma process_node_inv g i ws g' : process_node g i = (ws, Ok g') ->
  exists n base bv, get_node g i = Some n /\ n_parsed n <> PaDev /\ BaseOf g i n base bv /\
  ((exists e, n_parsed n = PaEvc e /\ exists w, process_evc_node g i base = (w, Ok g')) \/
   (forall e, n_parsed n <> PaEvc e) /\ exists w, process_dimable g i (n_parsed n) base bv = (w, Ok g')).
Proof.
  unfold process_node. intros H. destruct (get_node g i) as [n|] eqn:Hn; [|minv]. 
  apply bind_ok in H as (w0 & u & w1 & Hd & H & ->). apply bind_ok in H as (w2 & bs & w3 & Hb & H & ->).
  exists n, (option_map fst bs), (obind bs snd). split; [reflexivity|].
  assert (Hnd : n_parsed n <> PaDev) by (intros E; rewrite E in Hd; minv; discriminate). split; [exact Hnd|]. split.
  - destruct (derived_of (n_parsed n)) as [path|] eqn:Hder; [|minv; left; auto].
    destruct (get_base_element_node g i) as [b|] eqn:Hbe; [|minv]. destruct (get_node g b) as [nb|] eqn:Hnb; [|minv].
    minv. right. exists path, b, nb. cbn [option_map obind fst snd]. conj; auto.
    + apply negb_false_iff, level_eqb_eq in H1. auto.
    + intros E. rewrite E in H0. destruct (n_parsed n); try discriminate. eauto.
  - destruct (n_parsed n) as [|q|q|q|e] eqn:Hp; [congruence|right|right|right|left; eauto]; (split; [intros; discriminate|]; eauto).
Qed.

Lemma process_dimable_inv g i p base bv ws g' : process_dimable g i p base bv = (ws, Ok g') ->
  exists w is_dim names displays w' v vs, node_dimension p bv = (w, Ok (is_dim, names, displays)) /\
    create_elements 0 names displays p bv = (w', Ok (v :: vs)) /\
    exists w'', if is_dim : bool then update_dim_node g i base (map without_dim (v :: vs)) (with_name (parsed_name p) v) = (w'', Ok g')
                else update_node g i base v false = (w'', Ok g').
Proof.
  unfold process_dimable. intros H. apply bind_ok in H as (w & [[is_dim names] displays] & w1 & Hd & H & ->).
  apply bind_ok in H as (w' & vs & w2 & Hc & H & ->). destruct vs as [|v vs]; [minv|].
  exists w, is_dim, names, displays, w', v, vs. conj; auto. destruct is_dim; eauto.
Qed.

(** an enumerated value container takes over its base's description *)
Lemma process_evc_spec g i base ws g' n : WF g -> get_node g i = Some n -> process_evc_node g i base = (ws, Ok g') ->
  (base = None /\ WF g' /\ g' = set_node g i (mk_node (n_name n) (n_level n) true (n_parsed n) (n_processed n) (n_tmpl n))) \/
  exists b nb e g1, base = Some b /\ get_node g b = Some nb /\ n_parsed nb = PaEvc e /\
    let n1 := mk_node (n_name n) (n_level n) (n_done n) (n_parsed nb) (n_processed n) (n_tmpl n) in
    let n2 := mk_node (n_name n) (n_level n) true (n_parsed nb) (n_processed n) (n_tmpl n) in
    (exists m, Replicated (remove_edge (set_node g i n1) b i) b i g1 m) /\ WF g' /\ get_node g1 i = Some n1 /\ g' = set_node g1 i n2.
Proof.
  intros W Hn H. unfold process_evc_node in H. apply bind_ok in H as (w1 & g1 & w2 & H1 & H & ->). destruct base as [b|].
  - rewrite Hn in H1. destruct (get_node g b) as [nb|] eqn:Hb; [|minv]. destruct (n_parsed nb) as [| | | |e] eqn:Hp; try solve [minv].
    right. exists b, nb, e, g1. cbn zeta. rewrite Hp. set (n1 := mk_node _ _ _ _ _ _) in *.
    assert (W0 : WF (set_node g i n1)) by (eapply WF_set_node; eauto).
    assert (Hn1 : get_node (set_node g i n1) i = Some n1) by (apply get_node_slot; rewrite (set_node_slot _ _ _ _ Hn), Nat.eqb_refl; reflexivity).
    apply replicate_spec in H1.
    + destruct H1 as [m Hm]. assert (Hn1' : get_node g1 i = Some n1).
      { apply get_node_slot. apply (rp_keeps _ _ _ _ _ Hm). now apply get_node_slot in Hn1. }
      rewrite Hn1' in H. minv. conj; eauto. eapply WF_set_node; eauto. apply (rp_wf _ _ _ _ _ Hm).
    + now apply WF_remove_edge.
    + apply get_node_slot in Hn1. change (get_slot (set_node g i n1) i <> None). congruence.
  - minv. rewrite Hn in H. minv. left. conj; auto. eapply WF_set_node; eauto.
Qed.

Lemma process_node_WF g i ws g' : WF g -> process_node g i = (ws, Ok g') -> WF g'.
Proof.
  intros W H. apply process_node_inv in H as (n & base & bv & Hn & _ & _ & [(e & _ & w & H)|(_ & w & H)]).
  - eapply process_evc_spec in H; eauto. destruct H as [(_ & H & _)|(b & nb & e' & g1 & _ & _ & _ & _ & H & _)]; exact H.
  - apply process_dimable_inv in H as (w1 & is_dim & names & displays & w' & v & vs & _ & _ & w'' & H). destruct is_dim.
    + eapply update_dim_node_spec in H; eauto. destruct H as (g1 & xs & _ & H & _). exact H.
    + eapply update_node_spec in H; eauto. destruct H as (g1 & _ & _ & H & _). exact H.
Qed.
Lemma rounds_WF fuel : forall g prev ws g', WF g -> rounds fuel g prev = (ws, Ok g') -> WF g'.
Proof.
  induction fuel as [|f IH]; intros g prev ws g' W H; cbn [rounds] in H; [minv|]. apply bind_ok in H as (w1 & g1 & w2 & H1 & H & ->).
  apply resolve_phs_spec in H1 as (W1 & _); auto. destruct (topological_sorted g1 (find_processable g1)) as [|x l] eqn:Et; [minv; auto|].
  apply bind_ok in H as (w3 & u & w4 & _ & H & ->). apply bind_ok in H as (w5 & g2 & w6 & H2 & H & ->).
  eapply IH; [|exact H]. eapply (foldM_inv WF); [|exact W1|exact H2]. intros; eapply process_node_WF; eauto.
Qed.
