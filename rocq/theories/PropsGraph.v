(** * PropsGraph: C34, C36, C37, the resolver's dependency graph. *)
From Verif Require Import Base PyStr PyInt Types DimModel EnumModel ElemModel FinalModel ResolveModel ProcessModel SpecProcess SpecSearch.
From Verif Require Import GraphFacts ReplicateFacts SearchFacts ResolveWF TopoFacts EffectFacts Samples.

(** ** C34 *)
(** the graphs that arise while the description [ps] is being resolved: after adding some of the peripherals, and after any sequence of
    placeholder links, placeholder resolutions and node processings *)
Inductive Arises (ps : list svd_periph) : graph -> Prop :=
| Ar_build ps1 ps2 ws g : ps = ps1 ++ ps2 -> construct_graph ps1 = (ws, Ok g) -> Arises ps g
| Ar_link g ph ws g' : Arises ps g -> In ph (g_phs g) -> link_placeholder g ph = (ws, Ok g') -> Arises ps g'
| Ar_resolve g ph ws g' : Arises ps g -> resolve_placeholder g ph = (ws, Ok g') -> Arises ps g'
| Ar_process g i ws g' : Arises ps g -> process_node g i = (ws, Ok g') -> Arises ps g'.

Lemma Arises_WF ps g : Arises ps g -> WF g.
Proof.
  induction 1 as [ps1 ps2 ws g _ H|g ph ws g' _ W Hp H|g ph ws g' _ W H|g i ws g' _ W H].
  - now apply construct_grows in H as [? _].
  - apply link_grows in H as [? _]; auto. intros E. apply (wf_phs _ W) in Hp as [path Hp]. congruence.
  - now apply resolve_ph_spec in H.
  - now apply process_node_WF in H.
Qed.

(** the main loop only passes through such graphs *)
Lemma link_all ps l : forall g ws g', Arises ps g -> (forall x, In x l -> In x (g_phs g)) -> foldM link_placeholder g l = (ws, Ok g') -> Arises ps g'.
Proof.
  induction l as [|x l IH]; intros g ws g' A Hl H; cbn [foldM] in H; [minv; auto|]. apply bind_ok in H as (w1 & g1 & w2 & H1 & H & ->).
  eapply IH; [| |exact H].
  - eapply Ar_link; eauto. apply Hl. now left.
  - intros y Hy. unfold link_placeholder in H1. apply bind_ok in H1 as (w3 & cp & w4 & _ & H1 & ->). destruct cp as [p|].
    + apply add_edge_m_eq in H1 as (_ & -> & _). cbn [g_phs]. apply Hl. now right.
    + minv. apply Hl. now right.
Qed.
Lemma initialization_arises ps ws g : initialization ps = (ws, Ok g) -> Arises ps g.
Proof.
  unfold initialization. intros H. apply bind_ok in H as (w1 & g0 & w2 & H0 & H & ->).
  eapply link_all; [eapply (Ar_build ps ps []); [now rewrite app_nil_r|exact H0]| |exact H]. auto.
Qed.
Lemma rounds_arise ps fuel : forall g prev ws g', Arises ps g -> rounds fuel g prev = (ws, Ok g') -> Arises ps g'.
Proof.
  induction fuel as [|fuel IH]; intros g prev ws g' A H; cbn [rounds] in H; [minv|]. apply bind_ok in H as (w1 & g1 & w2 & H1 & H & ->).
  assert (A1 : Arises ps g1). { eapply (foldM_inv (Arises ps)); [|exact A|exact H1]. intros. eapply Ar_resolve; eauto. }
  destruct (topological_sorted g1 (find_processable g1)) as [|n ns] eqn:Et; [minv; exact A1|].
  apply bind_ok in H as (w3 & u & w4 & _ & H & ->). apply bind_ok in H as (w5 & g2 & w6 & H2 & H & ->).
  eapply IH; [|exact H]. eapply (foldM_inv (Arises ps)); [|exact A1|exact H2]. intros. eapply Ar_process; eauto.
Qed.

Theorem C34_acyclic_wellformed : forall ps g, Arises ps g ->
  (* every edge connects existing nodes *)
  (forall a b t, In (a, b, t) (g_edges g) -> (exists s, get_slot g a = Some s) /\ (exists s, get_slot g b = Some s)) /\
  (* no node is reachable from itself by one or more edges *)
  (forall a, ~ clos_trans nat (fun x y => exists t, In (x, y, t) (g_edges g)) a a) /\
  (* the topological order of any set of nodes: each unprocessed one exactly once, every edge forwards *)
  (forall nodes, let order := topological_sorted g nodes in NoDup order /\ (forall i, In i order <-> In i nodes /\ unprocessed g i = true) /\
     forall a b t, In a order -> In b order -> In (a, b, t) (g_edges g) -> exists l1 l2 l3, order = l1 ++ a :: l2 ++ b :: l3) /\
  (* the bottom-up pass visits every node exactly once, children before parents *)
  (exists order, NoDup order /\ (forall i, In i order <-> exists s, get_slot g i = Some s) /\
     (forall a b t, In (a, b, t) (g_edges g) -> exists l1 l2 l3, order = l1 ++ b :: l2 ++ a :: l3) /\
     bottom_up_traversal g = foldM (visit g) (g, None) order).
Proof.
  intros ps g A. assert (W := Arises_WF _ _ A). split; [|split; [|split]].
  - intros a b t H. apply (wf_edge _ W) in H as [H1 H2]. destruct (get_slot g a), (get_slot g b); try congruence. eauto.
  - intros a H. apply clos_trans_t1n_iff in H. assert (X : exists b, Step g a b /\ Reach g b a).
    { inversion H as [y H1|y z H1 H2]; subst; eexists; (split; [exact H1|]); [apply rt_refl|].
      apply clos_trans_t1n_iff in H2. clear -H2. induction H2; [now apply rt_step|eapply rt_trans; eauto]. }
    destruct X as (b & H1 & H2). exact (wf_acyclic _ W _ _ H1 H2).
  - intros nodes order. destruct (topological_sorted_spec g nodes W) as (Hn & HF & Hi). split; [exact Hn|]. split; [exact Hi|].
    intros a b t Ha Hb Ht. apply HF; auto. now exists t.
  - destruct (bottom_up_traversal_order g W) as (order & HP & HF & HE & _). exists order. split; [|split; [|split; [|exact HE]]].
    + eapply Permutation_NoDup; [symmetry; exact HP|apply node_indices_NoDup].
    + intros i. rewrite HP, node_indices_In. destruct (get_slot g i); split; [eauto|discriminate|congruence|intros [? ?]; discriminate].
    + intros a b t Ht. apply HF. now exists t.
Qed.

(** every graph the resolver works with arises in this sense *)
Theorem C34_resolver_graphs : forall ps fuel ws g ws' g', initialization ps = (ws, Ok g) -> rounds fuel g [] = (ws', Ok g') -> Arises ps g /\ Arises ps g'.
Proof. intros ps fuel ws g ws' g' H1 H2. assert (A := initialization_arises _ _ _ H1). split; [exact A|]. eapply rounds_arise; eauto. Qed.

(** the graph of the sample while it is resolved: initially 20 nodes and 21 edges, at the end (a copied peripheral, dim instances) more *)
Definition sample_graphs : option (graph * graph) :=
  match initialization (sdv_periphs sample) with
  | (_, Ok g) => match rounds 20 g [] with (_, Ok g') => Some (g, g') | _ => None end
  | _ => None
  end.
Example C34_nonvacuous : match sample_graphs with
  | Some (g, g') => (length (node_indices g), length (g_edges g), length (node_indices g'), length (g_edges g')) = (20, 21, 37, 36)%nat
  | None => False
  end.
Proof. vm_compute. reflexivity. Qed.

(** ** C36 *)
Lemma search_loop_err g sub part final excl lv : (forall i, Emits (fun _ => False) (fun c => c = ResolveException) (sub i)) ->
  forall nodes acc, Emits (fun _ => False) (fun c => c = ResolveException) (search_loop g sub part final excl lv nodes acc).
Proof. intros Hs. induction nodes as [|i l IH]; intros acc; cbn [search_loop]; em; try apply IH; try reflexivity. apply Hs. Qed.
Lemma search_err g parts : forall excl lv nodes, Emits (fun _ => False) (fun c => c = ResolveException) (search_nodes g parts excl lv nodes).
Proof. induction parts as [|a l IH]; intros; cbn [search_nodes]; em. apply search_loop_err. intros i. apply IH. Qed.
Lemma path_err g i lv path : Emits (fun _ => False) (fun c => c = ResolveException) (path_resolving g i lv path).
Proof. unfold path_resolving. em; apply search_err. Qed.

(** [near]: the elements the path leads to from the siblings of the element [i]; [far]: from the peripherals.  All of them are of
    the kind [lv] and different from [i].  The lookup picks a near one if there is one, otherwise a far one; the choice is unique, except
    that a processed register outside any alternate group wins over other candidates; ambiguity raises ResolveException, and nothing
    else is ever raised. *)
Theorem C36_path_lookup : forall g i lv path,
  let near := Leads g lv i (split_on "." path) (get_element_siblings g i) in
  let far := Leads g lv i (split_on "." path) (get_element_childrens g root) in
  let chosen (candidate : nat -> Prop) b := candidate b /\ ((forall k, candidate k -> k = b) \/ PlainRegister g b) in
  match snd (path_resolving g i lv path) with
  | Ok (Some b) => chosen near b \/ (forall k, ~ near k) /\ chosen far b
  | Ok None => (forall k, ~ near k) /\ (forall k, ~ far k)
  | Err e => ex_class e = ResolveException
  end.
Proof.
  intros g i lv path near far chosen. destruct (path_resolving g i lv path) as [ws [r|e]] eqn:E; cbn [snd].
  - apply path_resolving_spec in E. destruct r as [b|]; [|exact E]. destruct E as [E|E]; [now left|right]. exact E.
  - destruct (path_err g i lv path) as [_ X]. rewrite E in X. exact X.
Qed.
Theorem C36_candidates : forall g i lv names cands j, Leads g lv i names cands j ->
  j <> i /\ exists n, get_node g j = Some n /\ n_level n = lv.
Proof. intros. now apply Leads_node in H. Qed.
Theorem C36_ambiguous_raises : forall g i lv path j k,
  let near := Leads g lv i (split_on "." path) (get_element_siblings g i) in
  let far := Leads g lv i (split_on "." path) (get_element_childrens g root) in
  j <> k -> near j /\ near k /\ (forall b, near b -> ~ PlainRegister g b) \/
            (forall b, ~ near b) /\ far j /\ far k /\ (forall b, far b -> ~ PlainRegister g b) ->
  exists ws e, path_resolving g i lv path = (ws, Err e) /\ ex_class e = ResolveException.
Proof.
  intros g i lv path j k near far Hjk H. assert (X := C36_path_lookup g i lv path). cbv zeta in X. fold near far in X.
  destruct (path_resolving g i lv path) as [ws [[b|]|e]]; cbn [snd] in X.
  - exfalso. destruct H as [(H1 & H2 & H3)|(H0 & H1 & H2 & H3)], X as [[Xn [Xu|Xp]]|[Xn [Xf [Xu|Xp]]]].
    + apply Hjk. rewrite (Xu j H1), (Xu k H2). reflexivity.
    + exact (H3 b Xn Xp).
    + exact (Xn j H1).
    + exact (Xn j H1).
    + exact (H0 b Xn).
    + exact (H0 b Xn).
    + apply Hjk. rewrite (Xu j H1), (Xu k H2). reflexivity.
    + exact (H3 b Xf Xp).
  - exfalso. destruct H as [(H1 & _)|(_ & H1 & _)]; [exact (proj1 X j H1)|exact (proj2 X j H1)].
  - eauto.
Qed.

Definition find_node (g : graph) (name : string) : option nat :=
  find (fun i => match get_node g i with Some n => option_eqb String.eqb (n_name n) (Some name) | None => false end) (node_indices g).
(** in the initial graph of the sample register Y finds its sibling X; looking for A.C.D.X from the top gives the same element, and
    with two peripherals of the same name the lookup is ambiguous *)
Example C36_nonvacuous :
  match sample_graphs with
  | Some (g, _) => match find_node g "X", find_node g "Y" with
                   | Some x, Some y => snd (path_resolving g y LRegister "X") = Ok (Some x) /\ snd (path_resolving g y LRegister "A.C.D.X") = Ok (Some x) /\
                                       snd (path_resolving g y LRegister "D.X") = Ok None /\ snd (path_resolving g y LField "X") = Ok None
                   | _, _ => False end
  | None => False
  end /\
  match initialization [s_per "A" 0 [] None None; s_per "A" 8 [] None None; s_per "B" 16 [] None (Some "A")] with
  | (_, Ok g) => match find_node g "B" with Some b => exists e, snd (path_resolving g b LPeripheral "A") = Err e | None => False end
  | _ => False
  end.
Proof. split; [vm_compute; repeat split; reflexivity|]. vm_compute. eexists. reflexivity. Qed.

(** ** C37 *)
(** processing an element [i] that derives from [b] (see [BaseOf]): there is a one-to-one [copy] of everything below the base (edges of
    derivations not followed); the copies are new nodes with the same contents, connected among themselves like the originals; the
    copies of the base's children become children of [i]; all old nodes except [i] itself keep their contents and all old
    edges except the derivation of [i] keep their ends. *)
Theorem C37_children_copied : forall ps g src target ws g', Arises ps g -> get_slot g target <> None ->
  replicate_descendants g src target = (ws, Ok g') ->
  exists copy : list (nat * nat),
    (forall i, (exists j, In (i, j) copy) <-> clos_trans nat (fun x y => exists t, In (x, y, t) (g_edges g) /\ t <> DERIVE) src i) /\
    (forall i j k, In (i, j) copy -> In (i, k) copy -> j = k) /\ (forall i k j, In (i, j) copy -> In (k, j) copy -> i = k) /\
    (forall i j, In (i, j) copy -> get_slot g j = None /\ get_slot g' j = get_slot g i) /\
    (forall k s, get_slot g k = Some s -> get_slot g' k = Some s) /\
    (forall e, In e (g_edges g) -> In e (g_edges g')) /\
    (forall i j c d t, In (i, j) copy -> In (c, d) copy -> (In (j, d, t) (g_edges g') <-> In (i, c, t) (g_edges g))) /\
    (forall c d t, In (c, d) copy -> (exists t0, In (src, c, t0) (g_edges g) /\ t = attach_type g src c) -> In (target, d, t) (g_edges g')) /\
    (forall d t, In (target, d, t) (g_edges g') -> In (target, d, t) (g_edges g) \/ (exists c t0, In (c, d) copy /\ In (src, c, t0) (g_edges g) /\ t = attach_type g src c) \/
       exists i, In (i, d) copy /\ In (target, i, DERIVE) (g_edges g) /\ t = DERIVE).
Proof.
  intros ps g src target ws g' A Ht H. assert (W := Arises_WF _ _ A). destruct (replicate_spec g src target ws g' W Ht H) as [m R].
  assert (Hfun : forall i j k, In (i, j) m -> In (i, k) m -> j = k).
  { intros i j k H1 H2. apply (assoc_nd _ _ _ (rp_fun _ _ _ _ _ R)) in H1, H2. congruence. }
  assert (Hinj : forall i k j, In (i, j) m -> In (k, j) m -> i = k).
  { assert (N := rp_inj _ _ _ _ _ R). clear -N. induction m as [|[a b] m IH]; intros i k j H1 H2; [destruct H1|]. cbn in N. inversion N as [|? ? Hb N' E]; subst. destruct H1 as [H1|H1]; [|destruct H2 as [H2|H2]].
    - injection H1 as -> ->. destruct H2 as [H2|H2]; [congruence|]. exfalso. apply Hb. apply in_map_iff. now exists (k, j).
    - injection H2 as -> ->. exfalso. apply Hb. apply in_map_iff. now exists (i, j).
    - eauto. }
  exists m. destruct (rp_edges _ _ _ _ _ R) as (new & En & Hnew).
  assert (Hold : forall j i, In (i, j) m -> forall x t, ~ In (j, x, t) (g_edges g) /\ ~ In (x, j, t) (g_edges g)).
  { intros j i Hm x t. destruct (rp_fresh _ _ _ _ _ R _ _ Hm) as [Hf _]. split; intros X; apply (wf_edge _ W) in X; tauto. }
  split; [|split; [exact Hfun|split; [exact Hinj|split; [exact (rp_fresh _ _ _ _ _ R)|split; [exact (rp_keeps _ _ _ _ _ R)|split]]]]].
  - intros i. change (clos_trans nat _ src i) with (Desc g src i). rewrite <- (rp_dom _ _ _ _ _ R). rewrite in_map_iff. split; [intros [j Hj]; now exists (i, j)|]. intros ([a b] & <- & Hab). now exists b.
  - intros e He. rewrite En. apply in_or_app. now right.
  - split; [|split].
    + intros i j c d t Hi Hc. split.
      * intros X. rewrite En in X. apply in_app_or in X as [X|X]; [|exfalso; exact (proj1 (Hold j i Hi d t) X)].
        apply Hnew in X as [(i' & c' & H1 & H2 & H3)|[(i' & H1 & H2 & ->)|(E & _)]].
        -- now rewrite (Hinj _ _ _ Hi H1), (Hinj _ _ _ Hc H2).
        -- exfalso. exact (proj1 (Hold j i Hi i' DERIVE) H2).
        -- exfalso. subst j. destruct (rp_fresh _ _ _ _ _ R _ _ Hi) as [Hf _]. contradiction.
      * intros X. rewrite En. apply in_or_app. left. apply Hnew. left. eauto.
    + intros c d t Hc (t0 & X & ->). rewrite En. apply in_or_app. left. apply Hnew. right. right. split; [reflexivity|]. eauto.
    + intros d t X. rewrite En in X. apply in_app_or in X as [X|X]; [|now left]. right.
      apply Hnew in X as [(i' & c' & H1 & H2 & H3)|[(i' & H1 & H2 & ->)|(_ & c & t0 & H1 & H2 & ->)]].
      * exfalso. destruct (rp_fresh _ _ _ _ _ R _ _ H1) as [Hf _]. contradiction.
      * right. eauto.
      * left. eauto.
Qed.
(** this is how every element with a base is processed: the derivation edge is removed, everything below the base is copied below the element *)
Theorem C37_applied : forall ps g i n path ws g', Arises ps g -> get_node g i = Some n -> derived_of (n_parsed n) = Some path ->
  (forall e, n_parsed n <> PaEvc e) -> process_node g i = (ws, Ok g') ->
  exists b nb w g1, get_base_element_node g i = Some b /\ get_node g b = Some nb /\ n_level nb = n_level n /\
    replicate_descendants (remove_edge g b i) b i = (w, Ok g1) /\ (forall k s, k <> i -> get_slot g1 k = Some s -> get_slot g' k = Some s) /\
    (forall c t, In (i, c, t) (g_edges g1) -> exists t', In (i, c, t') (g_edges g')).
Proof.
  intros ps g i n path ws g' A Hn Hd He H. assert (W := Arises_WF _ _ A).
  apply process_node_inv in H as (n' & base & bv & Hn' & _ & HB & H). replace n' with n in * by congruence. clear n' Hn'.
  destruct HB as [(Hd' & _)|(p & b & nb & _ & -> & Hb & Hnb & Hlv & _)]; [congruence|].
  destruct H as [(e & He' & _)|(_ & w & H)]; [exfalso; exact (He e He')|].
  apply process_dimable_inv in H as (w1 & is_dim & names & displays & w2 & v & vs & _ & _ & w3 & H).
  assert (Hup : exists v0 t0 w4 g2, update_node g i (Some b) v0 t0 = (w4, Ok g2) /\ keeps g2 g' /\ (forall e, In e (g_edges g2) -> In e (g_edges g'))).
  { destruct is_dim.
    - apply (update_dim_node_spec _ _ _ _ _ _ _ _ W Hn) in H as (g2 & xs & (w4 & Hu) & _ & Hk & _ & _ & _ & _ & _ & He').
      do 4 eexists. split; [exact Hu|]. split; [exact Hk|]. intros e Hin. rewrite He'. apply in_or_app. right. apply in_or_app. now right.
    - do 4 eexists. split; [exact H|]. split; [apply keeps_refl|auto]. }
  destruct Hup as (v0 & t0 & w4 & g2 & Hu & Hk & Hes). unfold update_node in Hu. apply bind_ok in Hu as (w5 & g1 & w6 & Hr & Hu & ->).
  exists b, nb, w5, g1. split; [exact Hb|]. split; [exact Hnb|]. split; [exact Hlv|]. split; [exact Hr|].
  destruct (get_node g1 i) as [n1|] eqn:Hn1; [|minv]. minv. rewrite fold_update_edge in *. split.
  - intros k s Hki Hs. apply Hk. unfold get_slot in *. cbn [g_slots]. fold (get_slot (set_node g1 i (mk_node (n_name n1) (n_level n1) true (n_parsed n1) (Some v0) (t0 || n_tmpl n1))) k).
    rewrite (set_node_slot _ _ _ _ Hn1). destruct (Nat.eqb_spec i k); [congruence|exact Hs].
  - intros c t Hc. assert (X : exists t', In (i, c, t') (set_resolved (g_edges g1) i (get_element_childrens (set_node g1 i (mk_node (n_name n1) (n_level n1) true (n_parsed n1) (Some v0) (t0 || n_tmpl n1))) i))).
    { generalize (get_element_childrens (set_node g1 i (mk_node (n_name n1) (n_level n1) true (n_parsed n1) (Some v0) (t0 || n_tmpl n1))) i). intros cs.
      revert t Hc. generalize (g_edges g1). induction cs as [|x cs IH]; intros es t Hc; [exists t; exact Hc|]. cbn.
      assert (Y : exists t', In (i, c, t') (update_first i x CHILD_RESOLVED es)).
      { clear -Hc. induction es as [|e es IH]; [destruct Hc|]. cbn. destruct (Nat.eqb (e_src e) i && Nat.eqb (e_dst e) x) eqn:E.
        - apply andb_true_iff in E as [E1 E2]. apply Nat.eqb_eq in E1, E2. destruct Hc as [->|Hc]; [|exists t; now right]. cbn in *. subst x. eexists. now left.
        - destruct Hc as [->|Hc]; [exists t; now left|]. destruct (IH Hc) as [t' ?]. exists t'. now right. }
      destruct Y as [t' Y]. eapply IH. exact Y. }
    destruct X as [t' X]. exists t'. apply Hes. cbn [g_edges]. exact X.
Qed.
(** peripheral B of the sample derives from A: afterwards both have the same children *)
Example C37_nonvacuous : match sample_graphs with
  | Some (_, g) => match find_node g "A", find_node g "B" with
     | Some a, Some b => let names i := map (fun c => match get_node g c with Some n => n_name n | None => None end) (get_element_childrens g i) in
         length (names a) = 8%nat /\ names b = rev (names a)
     | _, _ => False end
  | None => False
  end.
Proof. vm_compute. split; reflexivity. Qed.

Print Assumptions C34_acyclic_wellformed.
Print Assumptions C34_resolver_graphs.
Print Assumptions C36_path_lookup.
Print Assumptions C36_ambiguous_raises.
Print Assumptions C37_children_copied.
Print Assumptions C37_applied.
