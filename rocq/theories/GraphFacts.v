(** * GraphFacts: the resolver's graph stays well formed and acyclic under every operation. *)
From Coq Require Export Relations.
From Verif Require Import Base PyStr PyInt Types DimModel EnumModel ElemModel ResolveModel.

(** ** Lists *)
Lemma set_nth_length {A} i (x : A) l : length (set_nth i x l) = length l.
Proof. revert i; induction l as [|y l IH]; intros [|i]; cbn; auto. Qed.
Lemma nth_set_nth {A} i j (x d : A) l : nth j (set_nth i x l) d = if Nat.eqb i j && (j <? length l)%nat then x else nth j l d.
Proof.
  revert i j; induction l as [|y l IH]; intros [|i] [|j]; cbn [set_nth nth length Nat.eqb andb]; try reflexivity.
  - destruct (Nat.eqb i j); reflexivity.
  - rewrite IH. reflexivity.
Qed.
Lemma mem_nat_In x l : mem_nat x l = true <-> In x l.
Proof.
  unfold mem_nat. rewrite existsb_exists. split.
  - intros (y & Hy & He). apply Nat.eqb_eq in He. now subst.
  - intros H. exists x. split; [assumption|apply Nat.eqb_refl].
Qed.
Lemma mem_nat_nIn x l : mem_nat x l = false <-> ~ In x l.
Proof. rewrite <- mem_nat_In. destruct (mem_nat x l); split; intros H; congruence. Qed.

Lemma filter_length_le {A} (p : A -> bool) l : (length (filter p l) <= length l)%nat.
Proof. induction l as [|x l IH]; cbn; [lia|]. destruct (p x); cbn; lia. Qed.

(** ** Slots *)
Lemma get_slot_lt g i s : get_slot g i = Some s -> (i < length (g_slots g))%nat.
Proof.
  unfold get_slot. intros H. destruct (Nat.ltb_spec i (length (g_slots g))); [assumption|].
  rewrite nth_overflow in H by assumption. discriminate.
Qed.
Lemma get_slot_set g i n j : get_slot (set_node g i n) j = if Nat.eqb i j && (j <? length (g_slots g))%nat then Some (NElem n) else get_slot g j.
Proof. unfold get_slot, set_node; cbn [g_slots]. apply nth_set_nth. Qed.
Lemma get_node_slot g i n : get_node g i = Some n <-> get_slot g i = Some (NElem n).
Proof. unfold get_node. destruct (get_slot g i) as [[m|p]|]; split; intros H; inversion H; auto. Qed.
Lemma get_node_slots g g' i : g_slots g = g_slots g' -> get_node g i = get_node g' i.
Proof. unfold get_node, get_slot. now intros ->. Qed.
Lemma node_indices_In g i : In i (node_indices g) <-> get_slot g i <> None.
Proof.
  unfold node_indices. rewrite filter_In, in_seq. split.
  - intros [_ H] E. rewrite E in H. discriminate.
  - intros H. destruct (get_slot g i) as [s|] eqn:E; [|congruence]. apply get_slot_lt in E. split; [lia|reflexivity].
Qed.
Lemma node_indices_NoDup g : NoDup (node_indices g).
Proof. apply NoDup_filter, seq_NoDup. Qed.

(** ** Paths *)
Definition Step (g : graph) (a b : nat) : Prop := exists t, In (a, b, t) (g_edges g).
Definition Reach (g : graph) : nat -> nat -> Prop := clos_refl_trans nat (Step g).

Record WF (g : graph) : Prop := {
  wf_free : forall i, In i (g_free g) -> (i < length (g_slots g))%nat /\ get_slot g i = None;
  wf_free_nd : NoDup (g_free g);
  wf_edge : forall a b t, In (a, b, t) (g_edges g) -> get_slot g a <> None /\ get_slot g b <> None;
  wf_phs : forall i, In i (g_phs g) <-> exists path, get_slot g i = Some (NPh path);
  wf_phs_nd : NoDup (g_phs g);
  wf_acyclic : forall a b, Step g a b -> ~ Reach g b a }.

(** ** depth first search *)
Section Dfs.
  Context (g : graph) (succ : nat -> list nat).
  Hypothesis Hlen : forall x, (length (succ x) <= length (out_edges g x))%nat.
  Definition unvisited_edges (visited : list nat) : list edge := filter (fun e => negb (mem_nat (e_src e) visited)) (g_edges g).

  Lemma unvisited_step x visited : mem_nat x visited = false ->
    (length (unvisited_edges (x :: visited)) + length (out_edges g x) <= length (unvisited_edges visited))%nat.
  Proof.
    intros Hx. unfold unvisited_edges, out_edges. induction (g_edges g) as [|e l IH]; [cbn; lia|].
    cbn [filter]. change (mem_nat (e_src e) (x :: visited)) with (Nat.eqb (e_src e) x || mem_nat (e_src e) visited).
    destruct (Nat.eqb_spec (e_src e) x) as [->|Hne]; cbn [orb negb].
    - rewrite Hx. cbn [negb length]. lia.
    - destruct (mem_nat (e_src e) visited); cbn [negb length]; lia.
  Qed.

  Definition sreach : nat -> nat -> Prop := clos_refl_trans nat (fun a b => In b (succ a)).

  Lemma dfs_spec fuel : forall stack visited,
    (length stack + length (unvisited_edges visited) <= fuel)%nat ->
    let r := dfs succ fuel stack visited in
    incl visited r /\ incl stack r /\
    (forall x, In x r -> In x visited \/ exists s, In s stack /\ sreach s x) /\
    (forall x, In x r -> ~ In x visited -> incl (succ x) r) /\
    (NoDup visited -> NoDup r).
  Proof.
    induction fuel as [|f IH]; intros stack visited Hf; cbn [dfs].
    - destruct stack as [|x s]; [|cbn in Hf; lia]. repeat split; auto using incl_refl; try easy.
    - destruct stack as [|x s]; [repeat split; auto using incl_refl; easy|].
      destruct (mem_nat x visited) eqn:Hx.
      + destruct (IH s visited) as (H1 & H2 & H3 & H4 & H5); [cbn in Hf; lia|]. repeat split; auto.
        * intros y [<-|Hy]; auto. apply H1. now apply mem_nat_In.
        * intros y Hy. destruct (H3 y Hy) as [?|(t & Ht & Hr)]; auto. right. exists t. split; [now right|assumption].
      + destruct (IH (rev (succ x) ++ s) (x :: visited)) as (H1 & H2 & H3 & H4 & H5).
        { rewrite app_length, rev_length. specialize (unvisited_step x visited Hx). specialize (Hlen x). cbn [length] in Hf. lia. }
        assert (Hsx : incl (succ x) (dfs succ f (rev (succ x) ++ s) (x :: visited))).
        { intros y Hy. apply H2, in_or_app. left. now apply in_rev in Hy. }
        repeat split.
        * intros y Hy. apply H1. now right.
        * intros y [<-|Hy]; [apply H1; now left|apply H2, in_or_app; now right].
        * intros y Hy. destruct (H3 y Hy) as [[<-|Hv]|(t & Ht & Hr)]; auto.
          -- right. exists x. split; [now left|apply rt_refl].
          -- right. apply in_app_or in Ht as [Ht|Ht].
             ++ exists x. split; [now left|]. apply rt_trans with t; [apply rt_step; now apply in_rev|exact Hr].
             ++ exists t. split; [now right|exact Hr].
        * intros y Hy Hny. destruct (Nat.eq_dec y x) as [->|Hne]; [exact Hsx|].
          apply H4; auto. intros [->|?]; auto.
        * intros Hn. apply H5. constructor; auto. now apply mem_nat_nIn.
  Qed.

  Lemma dfs_reach stack x : In x (dfs succ (dfs_fuel g stack) stack []) <-> exists s, In s stack /\ sreach s x.
  Proof.
    destruct (dfs_spec (dfs_fuel g stack) stack []) as (_ & H2 & H3 & H4 & _).
    { unfold dfs_fuel, unvisited_edges. assert (H := filter_length_le (fun e => negb (mem_nat (e_src e) [])) (g_edges g)).
      cbn [mem_nat existsb] in *. lia. }
    split.
    - intros Hx. destruct (H3 x Hx) as [[]|?]; assumption.
    - intros (s & Hs & Hr). apply clos_rt_rt1n in Hr. apply H2 in Hs. clear H2.
      induction Hr as [|a b c Hab Hr IH]; auto. apply IH. eapply H4; eauto.
  Qed.
  Lemma dfs_NoDup stack : NoDup (dfs succ (dfs_fuel g stack) stack []).
  Proof.
    destruct (dfs_spec (dfs_fuel g stack) stack []) as (_ & _ & _ & _ & H).
    { unfold dfs_fuel, unvisited_edges. assert (H := filter_length_le (fun e => negb (mem_nat (e_src e) [])) (g_edges g)).
      cbn [mem_nat existsb] in *. lia. }
    apply H. constructor.
  Qed.
End Dfs.

Lemma out_edges_In g i e : In e (out_edges g i) <-> In e (g_edges g) /\ e_src e = i.
Proof. unfold out_edges. now rewrite filter_In, Nat.eqb_eq. Qed.
Lemma in_edges_In g i e : In e (in_edges g i) <-> In e (g_edges g) /\ e_dst e = i.
Proof. unfold in_edges. now rewrite filter_In, Nat.eqb_eq. Qed.
Lemma edge_eta (e : edge) : e = (e_src e, e_dst e, e_typ e).
Proof. destruct e as [[a b] t]. reflexivity. Qed.

Lemma Step_out g a b : Step g a b <-> In b (map e_dst (out_edges g a)).
Proof.
  rewrite in_map_iff. split.
  - intros [t H]. exists (a, b, t). rewrite out_edges_In. auto.
  - intros (e & <- & He). apply out_edges_In in He as [He <-]. exists (e_typ e). now rewrite <- edge_eta.
Qed.

Lemma clos_rt_iff {A} (R S : A -> A -> Prop) : (forall a b, R a b <-> S a b) -> forall a b, clos_refl_trans A R a b <-> clos_refl_trans A S a b.
Proof.
  intros H a b. split; intros X; induction X; [apply rt_step; now apply H|apply rt_refl|eapply rt_trans; eauto|
    apply rt_step; now apply H|apply rt_refl|eapply rt_trans; eauto].
Qed.

Lemma reaches_spec g a b : reaches g a b = true <-> Reach g a b.
Proof.
  unfold reaches. rewrite mem_nat_In, (dfs_reach g) by (intros; now rewrite map_length). split.
  - intros (s & [<-|[]] & Hr). revert Hr. apply clos_rt_iff. intros; apply Step_out.
  - intros H. exists a. split; [now left|]. revert H. apply clos_rt_iff. intros; symmetry; apply Step_out.
Qed.

(** ** operations *)
Lemma WF_empty : WF empty_graph.
Proof.
  constructor; cbn; try easy; try (now constructor).
  - intros i. split; [easy|]. intros [p H]. destruct i; discriminate.
  - intros a b [t []].
Qed.

Lemma add_node_spec g n g' i : WF g -> add_node g n = (g', i) ->
  g_edges g' = g_edges g /\ g_phs g' = g_phs g /\ get_slot g i = None /\ get_slot g' i = Some n /\
  (forall j, j <> i -> get_slot g' j = get_slot g j) /\
  (forall j, In j (g_free g') -> (j < length (g_slots g'))%nat /\ get_slot g' j = None) /\ NoDup (g_free g').
Proof.
  intros W. unfold add_node. assert (Wf := wf_free g W). assert (Wn := wf_free_nd g W).
  destruct (g_free g) as [|k fr]; intros H; injection H as <- <-; cbn [g_edges g_phs g_free g_slots]; unfold get_slot in *; cbn [g_slots].
  - repeat split; try easy; [now apply nth_overflow|rewrite app_nth2, Nat.sub_diag by lia; reflexivity|].
    intros j Hj. destruct (Nat.lt_ge_cases j (length (g_slots g))).
    + now rewrite app_nth1.
    + rewrite app_nth2 by assumption. destruct (j - length (g_slots g))%nat as [|m] eqn:Em; [lia|]. rewrite nth_overflow; [|cbn; lia].
      symmetry. now apply nth_overflow.
  - destruct (Wf k) as [Hk1 Hk2]; [now left|]. inversion Wn as [|? ? Hk3 Hn]; subst.
    split; [easy|split; [easy|split; [easy|split; [|split; [|split]]]]].
    + rewrite nth_set_nth, Nat.eqb_refl. cbn [andb]. apply Nat.ltb_lt in Hk1. now rewrite Hk1.
    + intros j Hj. rewrite nth_set_nth. apply not_eq_sym, Nat.eqb_neq in Hj. now rewrite Hj.
    + intros j Hj. destruct (Wf j) as [H1 H2]; [now right|]. rewrite set_nth_length. split; [assumption|].
      rewrite nth_set_nth. destruct (Nat.eqb_spec k j) as [->|]; [contradiction|]. exact H2.
    + assumption.
Qed.

Lemma Step_edges g g' : g_edges g' = g_edges g -> forall a b, Step g' a b <-> Step g a b.
Proof. intros H a b. unfold Step. now rewrite H. Qed.
Lemma Reach_edges g g' : g_edges g' = g_edges g -> forall a b, Reach g' a b <-> Reach g a b.
Proof. intros H. apply clos_rt_iff. now apply Step_edges. Qed.

Lemma WF_add_elem g n g' i : WF g -> add_node g (NElem n) = (g', i) -> WF g'.
Proof.
  intros W H. destruct (add_node_spec _ _ _ _ W H) as (He & Hp & Hi & Hi' & Hj & Hf & Hn). constructor.
  - exact Hf.
  - exact Hn.
  - intros a b t. rewrite He. intros Hin. destruct (wf_edge g W _ _ _ Hin) as [Ha Hb]. split.
    + destruct (Nat.eq_dec a i) as [->|]; [congruence|rewrite Hj; auto].
    + destruct (Nat.eq_dec b i) as [->|]; [congruence|rewrite Hj; auto].
  - intros j. rewrite Hp, (wf_phs g W). destruct (Nat.eq_dec j i) as [->|Hne]; [|now rewrite Hj].
    rewrite Hi, Hi'. split; intros [p E]; discriminate.
  - rewrite Hp. apply (wf_phs_nd g W).
  - intros a b. rewrite (Step_edges _ _ He), (Reach_edges _ _ He). apply (wf_acyclic g W).
Qed.

Lemma WF_add_ph g path g' i : WF g -> add_node g (NPh path) = (g', i) ->
  WF (mk_graph (g_slots g') (g_free g') (g_edges g') (g_phs g' ++ [i])).
Proof.
  intros W H. destruct (add_node_spec _ _ _ _ W H) as (He & Hp & Hi & Hi' & Hj & Hf & Hn).
  set (gg := mk_graph _ _ _ _). assert (Hs : forall j, get_slot gg j = get_slot g' j) by reflexivity.
  assert (Hee : g_edges gg = g_edges g) by exact He. constructor.
  - exact Hf.
  - exact Hn.
  - intros a b t. rewrite Hee. intros Hin. destruct (wf_edge g W _ _ _ Hin) as [Ha Hb]. rewrite !Hs. split.
    + destruct (Nat.eq_dec a i) as [->|]; [congruence|rewrite Hj; auto].
    + destruct (Nat.eq_dec b i) as [->|]; [congruence|rewrite Hj; auto].
  - intros j. rewrite Hs. cbn [gg g_phs].
    rewrite in_app_iff, Hp, (wf_phs g W). cbn [In]. destruct (Nat.eq_dec j i) as [->|Hne].
    + rewrite Hi'. split; eauto.
    + rewrite Hj by assumption. split; [intros [?|[?|[]]]; auto; congruence|auto].
  - cbn [gg g_phs]. apply NoDup_app_intro; [rewrite Hp; apply (wf_phs_nd g W)|repeat constructor; auto|].
    intros x Hx [<-|[]]. rewrite Hp in Hx. apply (wf_phs g W) in Hx as [p Hx]. congruence.
  - intros a b. rewrite (Step_edges _ _ Hee), (Reach_edges _ _ Hee). apply (wf_acyclic g W).
Qed.

Lemma add_edge_eq g p c t g' : add_edge g p c t = Some g' ->
  g' = mk_graph (g_slots g) (g_free g) ((p, c, t) :: g_edges g) (g_phs g) /\ ~ Reach g c p.
Proof.
  unfold add_edge. destruct (reaches g c p) eqn:Hr; intros H; [discriminate|]. injection H as <-. split; [reflexivity|].
  rewrite <- reaches_spec. congruence.
Qed.
Lemma add_edge_m_eq g p c t ws g' : add_edge_m g p c t = (ws, Ok g') ->
  ws = [] /\ g' = mk_graph (g_slots g) (g_free g) ((p, c, t) :: g_edges g) (g_phs g) /\ ~ Reach g c p.
Proof.
  unfold add_edge_m. destruct (add_edge g p c t) as [g1|] eqn:H; intros Hr; minv. apply add_edge_eq in H as [-> H]. auto.
Qed.

Lemma Reach_new g p c t x y : let g' := mk_graph (g_slots g) (g_free g) ((p, c, t) :: g_edges g) (g_phs g) in
  Reach g' x y -> Reach g x y \/ Reach g x p /\ Reach g c y.
Proof.
  cbn. intros H. apply clos_rt_rt1n in H. induction H as [x|x z y Hs H IH]; [left; apply rt_refl|].
  destruct Hs as [t' [E|Hs]].
  - injection E as -> -> ->. right. split; [apply rt_refl|]. destruct IH as [IH|[_ IH]]; exact IH.
  - assert (Hxz : Reach g x z) by (apply rt_step; exists t'; exact Hs).
    destruct IH as [IH|[IH1 IH2]]; [left; eapply rt_trans; eauto|right; split; [eapply rt_trans; eauto|exact IH2]].
Qed.

Lemma WF_add_edge g p c t : WF g -> get_slot g p <> None -> get_slot g c <> None -> ~ Reach g c p ->
  WF (mk_graph (g_slots g) (g_free g) ((p, c, t) :: g_edges g) (g_phs g)).
Proof.
  intros W Hp Hc Hr. set (g' := mk_graph _ _ _ _). constructor; cbn [g' g_slots g_free g_edges g_phs].
  - apply (wf_free g W).
  - apply (wf_free_nd g W).
  - intros a b t' [E|H]; [injection E as <- <- <-; auto|now apply (wf_edge g W) in H].
  - apply (wf_phs g W).
  - apply (wf_phs_nd g W).
  - intros a b [t' [E|H]] HR.
    + injection E as <- <- <-. apply (Reach_new g p c t) in HR as [HR|[HR _]]; contradiction.
    + assert (Hs : Step g a b) by (exists t'; exact H). apply (Reach_new g p c t) in HR as [HR|[H1 H2]].
      * exact (wf_acyclic g W _ _ Hs HR).
      * apply Hr. eapply rt_trans; [exact H2|]. eapply rt_trans; [apply rt_step; exact Hs|exact H1].
Qed.
Lemma WF_add_edge_m g p c t ws g' : WF g -> get_slot g p <> None -> get_slot g c <> None -> add_edge_m g p c t = (ws, Ok g') -> WF g'.
Proof. intros W Hp Hc H. apply add_edge_m_eq in H as (_ & -> & Hr). now apply WF_add_edge. Qed.

(** removing edges, changing their types *)
Lemma WF_sub_edges g es : WF g -> (forall a b, (exists t, In (a, b, t) es) -> Step g a b) -> WF (mk_graph (g_slots g) (g_free g) es (g_phs g)).
Proof.
  intros W H. constructor; cbn [g_slots g_free g_edges g_phs].
  - apply (wf_free g W).
  - apply (wf_free_nd g W).
  - intros a b t Hin. destruct (H a b) as [t' H']; [eauto|]. now apply (wf_edge g W) in H'.
  - apply (wf_phs g W).
  - apply (wf_phs_nd g W).
  - intros a b Hs HR. apply H in Hs. apply (wf_acyclic g W _ _ Hs). clear Hs. induction HR as [x y Hs| |x y z _ IH1 _ IH2].
    + apply rt_step. now apply H.
    + apply rt_refl.
    + eapply rt_trans; [apply IH1|apply IH2].
Qed.

Lemma remove_first_In p c l e : In e (remove_first p c l) -> In e l.
Proof. induction l as [|x l IH]; cbn; auto. destruct (_ && _); [auto|]. intros [->|H]; auto. Qed.
Lemma WF_remove_edge g p c : WF g -> WF (remove_edge g p c).
Proof. intros W. apply WF_sub_edges; [exact W|]. intros a b [t H]. exists t. eapply remove_first_In; eauto. Qed.
Lemma update_first_In p c t l a b t' : In (a, b, t') (update_first p c t l) -> exists t'', In (a, b, t'') l.
Proof.
  induction l as [|x l IH]; cbn; [easy|]. destruct (Nat.eqb_spec (e_src x) p); [destruct (Nat.eqb_spec (e_dst x) c)|]; cbn [andb].
  - subst. intros [E|H]; [injection E as <- <- <-; exists (e_typ x); left; apply edge_eta|eauto].
  - intros [->|H]; [eauto|]. destruct (IH H) as [t2 ?]; eauto.
  - intros [->|H]; [eauto|]. destruct (IH H) as [t2 ?]; eauto.
Qed.
Lemma WF_update_edge g p c t : WF g -> WF (update_edge g p c t).
Proof. intros W. apply WF_sub_edges; [exact W|]. intros a b [t' H]. destruct (update_first_In _ _ _ _ _ _ _ H) as [t2 ?]. now exists t2. Qed.

Lemma WF_remove_ph g i path : WF g -> get_slot g i = Some (NPh path) -> WF (remove_placeholder g i).
Proof.
  intros W Hi. assert (Hlt := get_slot_lt _ _ _ Hi).
  assert (Hs : forall j, get_slot (remove_placeholder g i) j = if Nat.eqb i j then None else get_slot g j).
  { intros j. unfold get_slot, remove_placeholder. cbn [g_slots]. rewrite nth_set_nth.
    destruct (Nat.eqb_spec i j) as [->|]; cbn [andb]; [|reflexivity]. apply Nat.ltb_lt in Hlt. now rewrite Hlt. }
  assert (Hsub : forall a b, Step (remove_placeholder g i) a b -> Step g a b /\ a <> i /\ b <> i).
  { intros a b [t H]. cbn [remove_placeholder g_edges] in H. apply filter_In in H as [H Hb]. apply andb_prop in Hb as [Ha Hb].
    cbn [e_src e_dst fst snd] in *. apply negb_true_iff, Nat.eqb_neq in Ha. apply negb_true_iff, Nat.eqb_neq in Hb.
    split; [now exists t|auto]. }
  constructor.
  - intros j [<-|Hj]; cbn [remove_placeholder g_slots]; rewrite set_nth_length.
    + rewrite Hs, Nat.eqb_refl. auto.
    + destruct (wf_free g W j Hj) as [? H2]. rewrite Hs. destruct (Nat.eqb i j); auto.
  - cbn [remove_placeholder g_free]. constructor; [|apply (wf_free_nd g W)]. intros H. apply (wf_free g W) in H as [_ H]. congruence.
  - intros a b t H. destruct (Hsub a b) as ((t' & H') & Ha & Hb); [now exists t|]. apply (wf_edge g W) in H' as [H1 H2].
    rewrite !Hs. apply not_eq_sym, Nat.eqb_neq in Ha. apply not_eq_sym, Nat.eqb_neq in Hb. rewrite Ha, Hb. auto.
  - intros j. cbn [remove_placeholder g_phs]. rewrite filter_In, (wf_phs g W), Hs, negb_true_iff, Nat.eqb_neq.
    destruct (Nat.eqb_spec i j) as [->|]; split.
    + intros [_ ?]. congruence.
    + intros [p E]. discriminate.
    + intros [H _]. exact H.
    + intros H. split; [exact H|]. congruence.
  - cbn [remove_placeholder g_phs]. apply NoDup_filter, (wf_phs_nd g W).
  - intros a b H HR. destruct (Hsub a b H) as (H1 & _). apply (wf_acyclic g W _ _ H1). clear H H1.
    induction HR as [x y Hx| |x y z _ IH1 _ IH2]; [apply rt_step; now apply Hsub|apply rt_refl|eapply rt_trans; eauto].
Qed.

Lemma WF_set_node g i n m : WF g -> get_node g i = Some m -> WF (set_node g i n).
Proof.
  intros W Hm. apply get_node_slot in Hm. assert (Hlt := get_slot_lt _ _ _ Hm).
  assert (Hs : forall j, get_slot (set_node g i n) j = if Nat.eqb i j then Some (NElem n) else get_slot g j).
  { intros j. rewrite get_slot_set. destruct (Nat.eqb_spec i j) as [->|]; cbn [andb]; [|reflexivity]. apply Nat.ltb_lt in Hlt. now rewrite Hlt. }
  constructor.
  - cbn [set_node g_free g_slots]. intros j Hj. rewrite set_nth_length, Hs. destruct (wf_free g W j Hj) as [? H2].
    destruct (Nat.eqb_spec i j) as [->|]; auto. congruence.
  - apply (wf_free_nd g W).
  - cbn [set_node g_edges]. intros a b t H. apply (wf_edge g W) in H as [? ?]. rewrite !Hs. split; destruct (Nat.eqb i _); congruence.
  - intros j. cbn [set_node g_phs]. rewrite (wf_phs g W), Hs. destruct (Nat.eqb_spec i j) as [->|]; [|reflexivity].
    rewrite Hm. split; intros [p E]; discriminate.
  - apply (wf_phs_nd g W).
  - apply (wf_acyclic g W).
Qed.
Lemma set_node_slot g i n m : get_node g i = Some m -> forall j, get_slot (set_node g i n) j = if Nat.eqb i j then Some (NElem n) else get_slot g j.
Proof.
  intros Hm j. apply get_node_slot in Hm. assert (Hlt := get_slot_lt _ _ _ Hm).
  rewrite get_slot_set. destruct (Nat.eqb_spec i j) as [->|]; cbn [andb]; [|reflexivity]. apply Nat.ltb_lt in Hlt. now rewrite Hlt.
Qed.
