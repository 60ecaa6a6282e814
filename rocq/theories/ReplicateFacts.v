(** * ReplicateFacts: what replicate_descendants does to a well-formed graph. *)
From Verif Require Import Base PyStr PyInt Types DimModel EnumModel ElemModel ResolveModel GraphFacts.

Ltac conj := repeat match goal with |- _ /\ _ => split | |- _ <-> _ => split end.
(** [g'] has the nodes of [g] (and possibly more) *)
Definition keeps (g g' : graph) : Prop := forall i s, get_slot g i = Some s -> get_slot g' i = Some s.
Lemma keeps_refl g : keeps g g. Proof. intros i s H; exact H. Qed.
Lemma keeps_trans g1 g2 g3 : keeps g1 g2 -> keeps g2 g3 -> keeps g1 g3.
Proof. intros H1 H2 i s H. apply H2, H1, H. Qed.
Lemma keeps_exists g g' i : keeps g g' -> get_slot g i <> None -> get_slot g' i <> None.
Proof. intros H Hi. destruct (get_slot g i) as [s|] eqn:E; [|congruence]. rewrite (H _ _ E). discriminate. Qed.
Lemma keeps_slots g g' : g_slots g' = g_slots g -> keeps g g'.
Proof. intros H i s. unfold get_slot. now rewrite H. Qed.
Lemma keeps_node g g' i n : keeps g g' -> get_node g i = Some n -> get_node g' i = Some n.
Proof. intros H Hn. apply get_node_slot. apply H. now apply get_node_slot. Qed.
Lemma add_node_keeps g n g' i : WF g -> add_node g n = (g', i) -> keeps g g'.
Proof.
  intros W H. destruct (add_node_spec _ _ _ _ W H) as (_ & _ & Hi & _ & Hj & _). intros k s Hk. rewrite Hj; auto. congruence.
Qed.

Lemma foldM_inv {A B} (I : B -> Prop) (f : B -> A -> M B) l : forall b ws b',
  (forall b x ws b', I b -> In x l -> f b x = (ws, Ok b') -> I b') -> I b -> foldM f b l = (ws, Ok b') -> I b'.
Proof.
  induction l as [|x l IH]; intros b ws b' Hf Hb H; cbn in H; minv; auto.
  eapply IH; [|eapply Hf; [exact Hb|now left|eassumption]|eassumption]. intros; eapply Hf; eauto. now right.
Qed.

(** ** the copies *)
Lemma assoc_In m i j : assoc m i = Some j -> In (i, j) m.
Proof.
  unfold assoc. destruct (find _ m) as [[a b]|] eqn:E; [|discriminate]. intros H. injection H as <-.
  apply find_some in E as [E1 E2]. apply Nat.eqb_eq in E2. cbn in *. now subst.
Qed.
Lemma assoc_None m i : assoc m i = None <-> ~ In i (map fst m).
Proof.
  unfold assoc. destruct (find _ m) as [[a b]|] eqn:E; split; try discriminate; try easy.
  - apply find_some in E as [E1 E2]. apply Nat.eqb_eq in E2. cbn in E2. subst. intros H. destruct H. now apply in_map with (f := fst) in E1.
  - intros _ H. apply in_map_iff in H as ([a b] & <- & H). apply (find_none _ _ E) in H. cbn in H. now rewrite Nat.eqb_refl in H.
Qed.
Lemma assoc_nd m i j : NoDup (map fst m) -> In (i, j) m -> assoc m i = Some j.
Proof.
  intros Hn H. destruct (assoc m i) as [k|] eqn:E.
  - apply assoc_In in E. f_equal. clear -Hn H E. induction m as [|[a b] m IH]; [destruct H|]. cbn in Hn. inversion Hn; subst.
    destruct H as [H|H], E as [E|E].
    + congruence.
    + injection H as -> ->. apply in_map with (f := fst) in E. contradiction.
    + injection E as -> ->. apply in_map with (f := fst) in H. contradiction.
    + auto.
  - apply assoc_None in E. destruct E. now apply in_map with (f := fst) in H.
Qed.

Lemma copy_nodes_spec l : forall g m g' m', WF g -> NoDup l -> (forall i, In i l -> get_slot g i <> None) -> copy_nodes g l m = (g', m') ->
  WF g' /\ keeps g g' /\ g_edges g' = g_edges g /\
  exists m2, m' = m ++ m2 /\ map fst m2 = l /\ NoDup (map snd m2) /\
    (forall i j, In (i, j) m2 -> get_slot g j = None /\ get_slot g' j = get_slot g i) /\
    (forall k, get_slot g' k <> None -> get_slot g k <> None \/ In k (map snd m2)).
Proof.
  induction l as [|i l IH]; intros g m g' m' W Hnd Hl H; cbn [copy_nodes] in H.
  - injection H as <- <-. split; [exact W|]. split; [apply keeps_refl|]. split; [reflexivity|]. exists []. rewrite app_nil_r.
    split; [reflexivity|]. split; [reflexivity|]. split; [constructor|]. split; [intros i j []|]. intros k Hk. now left.
  - inversion Hnd as [|? ? Hi Hnd']; subst. destruct (get_slot g i) as [n|] eqn:Hs; [|destruct (Hl i); [now left|exact Hs]].
    destruct (add_node g n) as [g1 j] eqn:Ha.
    assert (Hk1 := add_node_keeps _ _ _ _ W Ha).
    destruct (add_node_spec _ _ _ _ W Ha) as (He1 & _ & Hj0 & Hj1 & Hoth & _).
    set (g2 := match n with NElem _ => g1 | NPh _ => _ end) in H.
    assert (Hs2 : forall k, get_slot g2 k = get_slot g1 k) by (unfold g2; destruct n; reflexivity).
    assert (W2 : WF g2).
    { unfold g2. destruct n; [eapply WF_add_elem; eauto|eapply WF_add_ph; eauto]. }
    assert (Hk2 : keeps g g2) by (intros k s Hk; rewrite Hs2; auto).
    apply IH in H; auto; [|intros k Hk; eapply keeps_exists; [exact Hk2|]; apply Hl; now right].
    destruct H as (W' & Hk' & He' & m2 & -> & Hf & Hn & Hm & Hex).
    split; [exact W'|]. split; [eapply keeps_trans; eauto|]. split; [rewrite He'; unfold g2; destruct n; exact He1|].
    exists ((i, j) :: m2). rewrite <- app_assoc. cbn [app map fst snd]. rewrite Hf. split; [reflexivity|split; [reflexivity|split; [|split; [intros i0 j0 H; split|]]]].
    + constructor; auto. intros Hin. apply in_map_iff in Hin as ([a b] & E & Hin). cbn in E. subst b. apply Hm in Hin as [Hin _].
      rewrite Hs2, Hj1 in Hin. discriminate.
    + destruct H as [E|Hin]; [injection E as -> ->; exact Hj0|].
      apply Hm in Hin as [Hin _]. rewrite Hs2 in Hin. destruct (get_slot g j0) as [s|] eqn:E; [|reflexivity]. rewrite (Hk1 _ _ E) in Hin. discriminate.
    + destruct H as [E|Hin].
      * injection E as <- <-. rewrite Hs. apply Hk'. now rewrite Hs2.
      * assert (Hi0 : In i0 l) by (rewrite <- Hf; now apply in_map with (f := fst) in Hin).
        apply Hm in Hin as [_ Hin]. rewrite Hin, Hs2. destruct (get_slot g i0) as [s|] eqn:E; [now apply Hk1|].
        destruct (Hl i0); [now right|exact E].
    + intros k Hk. apply Hex in Hk as [Hk|Hk]; [|right; now right]. rewrite Hs2 in Hk.
      destruct (Nat.eq_dec k j) as [->|Hne]; [right; now left|]. left. now rewrite <- Hoth.
Qed.

(** ** edges added one after the other *)
Lemma add_edges_spec {A} (f : graph -> A -> M graph) (src dst : A -> nat) (typ : graph -> A -> etype) (sel : A -> bool) l :
  (forall g x, f g x = if sel x then add_edge_m g (src x) (dst x) (typ g x) else ret g) ->
  (forall g g' x, g_slots g = g_slots g' -> typ g x = typ g' x) ->
  forall g ws g', WF g -> (forall x, In x l -> sel x = true -> get_slot g (src x) <> None /\ get_slot g (dst x) <> None) ->
  foldM f g l = (ws, Ok g') ->
  WF g' /\ g_slots g' = g_slots g /\ g_free g' = g_free g /\ g_phs g' = g_phs g /\
  g_edges g' = rev (map (fun x => (src x, dst x, typ g x)) (filter sel l)) ++ g_edges g.
Proof.
  intros Hf Ht. induction l as [|x l IH]; intros g ws g' W Hx H; cbn in H; minv.
  - cbn. auto 10.
  - rewrite Hf in Hm. cbn [filter]. destruct (sel x) eqn:Hs.
    + destruct (Hx x) as [H1 H2]; [now left|exact Hs|].
      assert (W1 := WF_add_edge_m _ _ _ _ _ _ W H1 H2 Hm).
      apply add_edge_m_eq in Hm as (_ & -> & _). apply IH in Hk; auto; [|intros y Hy; apply Hx; now right].
      destruct Hk as (W' & H3 & H4 & H5 & H6). cbn [g_slots g_free g_phs g_edges] in *. conj; auto.
      rewrite H6. cbn [map rev]. rewrite <- app_assoc. cbn [app]. f_equal. f_equal. apply map_ext. intros y. f_equal. now apply Ht.
    + minv. apply IH in Hk; auto. intros y Hy; apply Hx; now right.
Qed.
Lemma foldM_ext {A B} (f g : B -> A -> M B) l : (forall b x, In x l -> f b x = g b x) -> forall b, foldM f b l = foldM g b l.
Proof.
  intros H. induction l as [|x l IH]; intros b; cbn; [reflexivity|]. rewrite H by now left.
  destruct (g b x) as [w [b'|e]]; [|reflexivity]. cbn. rewrite <- IH; [reflexivity|]. intros; apply H; now right.
Qed.

(** ** descendants *)
Definition NStep (g : graph) (a b : nat) : Prop := exists t, In (a, b, t) (g_edges g) /\ t <> DERIVE.
Definition Desc (g : graph) (a b : nat) : Prop := clos_trans nat (NStep g) a b.

Lemma out_nd_In g : forall a b, In b (out_nd g a) <-> NStep g a b.
Proof.
  intros a b. unfold out_nd. rewrite in_map_iff. split.
  - intros (e & <- & He). apply filter_In in He as [He Ht]. apply out_edges_In in He as [He <-]. exists (e_typ e). rewrite <- edge_eta.
    split; [exact He|]. destruct (e_typ e); discriminate.
  - intros (t & H & Ht). exists (a, b, t). split; [reflexivity|]. apply filter_In. rewrite out_edges_In. conj; auto. destruct t; auto; congruence.
Qed.

Lemma nodup_nat_NoDup l : nodup_nat l = true -> NoDup l.
Proof.
  induction l as [|x l IH]; cbn; intros H; constructor; apply andb_true_iff in H as [H1 H2]; [|auto].
  intros Hi. apply mem_nat_In in Hi. rewrite Hi in H1. discriminate.
Qed.
(** Whatever the order of the set, it lists the same nodes. *)
Lemma descendants_asc g src : NoDup (descendants g src) /\ forall i, In i (descendants g src) <->
  In i (filter (fun i => mem_nat i (flat_map (out_nd g) (rev (dfs (out_nd g) (dfs_fuel g [src]) [src] [])))) (node_indices g)).
Proof.
  unfold descendants. set (reps := flat_map _ (rev _)). set (asc := filter _ _). set (l := set_order reps).
  destruct (nodup_nat l) eqn:H1; cbn [andb]; [|split; [apply NoDup_filter, node_indices_NoDup|tauto]].
  destruct (forallb _ asc) eqn:H2; cbn [andb]; [|split; [apply NoDup_filter, node_indices_NoDup|tauto]].
  destruct (forallb _ l) eqn:H3; [|split; [apply NoDup_filter, node_indices_NoDup|tauto]].
  split; [now apply nodup_nat_NoDup|]. rewrite forallb_forall in H2, H3. intros i. split; intros Hi.
  - apply mem_nat_In. now apply H3.
  - apply mem_nat_In. now apply H2.
Qed.
Lemma descendants_spec g src : WF g -> NoDup (descendants g src) /\ forall i, In i (descendants g src) <-> Desc g src i.
Proof.
  intros W. destruct (descendants_asc g src) as [Hnd Has]. split; [exact Hnd|]. intros i. rewrite Has.
  rewrite filter_In, mem_nat_In, in_flat_map, node_indices_In. setoid_rewrite <- in_rev.
  assert (Hd : forall x, In x (dfs (out_nd g) (dfs_fuel g [src]) [src] []) <-> clos_refl_trans nat (NStep g) src x).
  { intros x. rewrite (dfs_reach g).
    - split.
      + intros (s & [<-|[]] & Hr). exact (proj1 (clos_rt_iff _ _ (out_nd_In g) _ _) Hr).
      + intros H. exists src. split; [now left|]. exact (proj2 (clos_rt_iff _ _ (out_nd_In g) _ _) H).
    - intros y. unfold out_nd. rewrite map_length. apply filter_length_le. }
  split.
  - intros (_ & x & Hx & Hi). apply Hd in Hx. apply out_nd_In in Hi. unfold Desc. apply clos_rt_t with x; [exact Hx|apply t_step; exact Hi].
  - intros H. apply clos_trans_tn1 in H. assert (Hex : exists x, clos_refl_trans nat (NStep g) src x /\ NStep g x i).
    { inversion H as [? Hs|x ? Hs Hp]; subst; [exists src; split; [apply rt_refl|exact Hs]|].
      exists x. split; [|exact Hs]. apply clos_tn1_trans in Hp. clear -Hp. induction Hp; [now apply rt_step|eapply rt_trans; eauto]. }
    destruct Hex as (x & Hx & Hs). split.
    + destruct Hs as (t & Hs & _). now apply (wf_edge g W) in Hs.
    + exists x. split; [now apply Hd|now apply out_nd_In].
Qed.

Lemma perm_swap2 {A} (l n1 n2 n0 : list A) : Permutation (l ++ n2 ++ n1 ++ n0) (((n1 ++ n2) ++ l) ++ n0).
Proof.
  rewrite !app_assoc. apply Permutation_app_tail. rewrite (Permutation_app_comm (n1 ++ n2) l), <- app_assoc. apply Permutation_app_head, Permutation_app_comm.
Qed.
Lemma Permutation_refl' {A} (l l' : list A) : l = l' -> Permutation l l'.
Proof. now intros ->. Qed.

(** ** the whole operation *)
Section Replicate.
  Context (g : graph) (src target : nat).

  (** the type of the edge from the target to the copy of a child of the source *)
  Definition attach_type (c : nat) : etype :=
    if is_elem g c then (if match get_node g src with Some n => n_done n | None => false end then CHILD_RESOLVED else CHILD_UNRESOLVED) else PLACEHOLDER.

  (** the edges copied for one copied node, and those attached to the target *)
  Definition copied (m : list (nat * nat)) (ij : nat * nat) : list edge := let '(i, j) := ij in
    flat_map (fun e => match assoc m (e_dst e) with Some c => [(j, c, e_typ e)] | None => [] end) (out_edges g i)
    ++ flat_map (fun e => if etype_eqb (e_typ e) DERIVE then [(e_src e, j, DERIVE)] else []) (in_edges g i).
  Definition attached (m : list (nat * nat)) : list edge :=
    flat_map (fun e => match assoc m (e_dst e) with Some c => [(target, c, attach_type (e_dst e))] | None => [] end) (out_edges g src).

  Record Replicated (g' : graph) (m : list (nat * nat)) : Prop := {
    rp_wf : WF g';
    rp_keeps : keeps g g';
    rp_dom : forall i, In i (map fst m) <-> Desc g src i;
    rp_fun : NoDup (map fst m);
    rp_inj : NoDup (map snd m);
    rp_fresh : forall i j, In (i, j) m -> get_slot g j = None /\ get_slot g' j = get_slot g i;
    rp_only : forall k, get_slot g' k <> None -> get_slot g k <> None \/ In k (map snd m);
    rp_edges : exists new, g_edges g' = new ++ g_edges g /\
      forall a b t, In (a, b, t) new <->
        (exists i c, In (i, a) m /\ In (c, b) m /\ In (i, c, t) (g_edges g)) \/
        (exists i, In (i, b) m /\ In (a, i, DERIVE) (g_edges g) /\ t = DERIVE) \/
        (a = target /\ exists c t0, In (src, c, t0) (g_edges g) /\ In (c, b) m /\ t = attach_type c);
    rp_perm : exists new, g_edges g' = new ++ g_edges g /\ Permutation new (flat_map (copied m) m ++ attached m) }.

  Lemma flat_map_sel {A B} (f : A -> option B) {C} (h : A -> B -> C) (d : B) l :
    flat_map (fun e => match f e with Some c => [h e c] | None => [] end) l =
    map (fun e => h e (match f e with Some c => c | None => d end)) (filter (fun e => match f e with Some _ => true | None => false end) l).
  Proof. induction l as [|e l IH]; cbn; [reflexivity|]. rewrite IH. destruct (f e) eqn:E; cbn; [now rewrite E|reflexivity]. Qed.
  Lemma flat_map_if {A C} (p : A -> bool) (h : A -> C) l : flat_map (fun e => if p e then [h e] else []) l = map h (filter p l).
  Proof. induction l as [|e l IH]; cbn; [reflexivity|]. rewrite IH. destruct (p e); reflexivity. Qed.

  Lemma replicate_spec ws g' : WF g -> get_slot g target <> None -> replicate_descendants g src target = (ws, Ok g') ->
    exists m, Replicated g' m.
  Proof.
    intros W Ht H. unfold replicate_descendants in H. destruct (copy_nodes g (descendants g src) []) as [g1 m] eqn:Hc.
    destruct (descendants_spec g src W) as [Hdn Hd].
    assert (Hdex : forall i, In i (descendants g src) -> get_slot g i <> None).
    { intros i Hi. apply (proj2 (descendants_asc g src)) in Hi. apply filter_In in Hi as [Hi _]. now apply node_indices_In. }
    apply copy_nodes_spec in Hc; auto. destruct Hc as (W1 & Hk1 & He1 & m2 & Em & Hfst & Hsnd & Hm & Hex). cbn [app] in Em. subst m2.
    assert (Hnf : NoDup (map fst m)) by (now rewrite Hfst).
    assert (Hjn : forall j, In j (map snd m) -> get_slot g j = None /\ get_slot g1 j <> None).
    { intros j Hj. apply in_map_iff in Hj as ([i j'] & E & Hin). cbn in E. subst j'. destruct (Hm _ _ Hin) as [H1 H2]. split; [exact H1|].
      rewrite H2. apply Hdex. rewrite <- Hfst. now apply in_map with (f := fst) in Hin. }
    assert (Hfn : forall i, In i (map fst m) -> get_slot g i <> None) by (rewrite Hfst; exact Hdex).
    apply bind_ok in H as (wa & g2 & wb & H2 & H3 & _).
    (* the edges of the copies *)
    set (phi := copied m).
    assert (Hstep : forall l, incl l m -> forall ga w gb new0, foldM (copy_edges_of m) ga l = (w, Ok gb) ->
              WF ga -> g_slots ga = g_slots g1 -> g_edges ga = new0 ++ g_edges g ->
              (forall a b t, In (a, b, t) new0 -> In b (map snd m)) ->
              exists new, WF gb /\ g_slots gb = g_slots g1 /\ g_edges gb = new ++ g_edges g /\
                (forall a b t, In (a, b, t) new -> In b (map snd m)) /\
                Permutation new (flat_map phi l ++ new0)).
    { induction l as [|[i j] l IH]; intros Hl ga w gb new0 Hf Wa Hs He Hnew; cbn in Hf; minv.
      - exists new0. conj; auto.
      - rename a into gc. assert (Hij : In (i, j) m) by (apply Hl; now left).
        assert (Hout : out_edges ga i = filter (fun e => Nat.eqb (e_src e) i) new0 ++ out_edges g i).
        { unfold out_edges. rewrite He. apply filter_app. }
        rename a0 into gx, Hm1 into Hx, Hk0 into Hy.
        set (sel1 := fun e : edge => match assoc m (e_dst e) with Some _ => true | None => false end).
        set (dst1 := fun e : edge => match assoc m (e_dst e) with Some c => c | None => 0%nat end).
        apply (add_edges_spec _ (fun _ => j) dst1 (fun _ e => e_typ e) sel1) in Hx; auto.
        2: { intros. unfold sel1, dst1. destruct (assoc m (e_dst x)); reflexivity. }
        2: { intros e _ Hsel. unfold sel1, dst1 in *. destruct (assoc m (e_dst e)) as [c|] eqn:Ec; [|discriminate].
             apply assoc_In in Ec. assert (Hj1 : In j (map snd m)) by (now apply in_map with (f := snd) in Hij).
             assert (Hc1 : In c (map snd m)) by (now apply in_map with (f := snd) in Ec).
             apply Hjn in Hj1 as [_ Hj1]. apply Hjn in Hc1 as [_ Hc1]. unfold get_slot in *. rewrite Hs. auto. }
        destruct Hx as (Wx & Hsx & Hfx & Hpx & Hex1).
        set (n1 := rev (map (fun e : edge => (j, dst1 e, e_typ e)) (filter sel1 (out_edges ga i)))) in *.
        assert (Hn1p : n1 = rev (flat_map (fun e => match assoc m (e_dst e) with Some c => [(j, c, e_typ e)] | None => [] end) (out_edges g i))).
        { unfold n1. rewrite (flat_map_sel (fun e : edge => assoc m (e_dst e)) (fun e c => (j, c, e_typ e)) 0%nat). f_equal. rewrite Hout, filter_app.
          destruct (filter sel1 (filter _ new0)) as [|x r] eqn:Er; [reflexivity|]. exfalso.
          assert (Hx : In x (filter sel1 (filter (fun e => Nat.eqb (e_src e) i) new0))) by (rewrite Er; now left).
          apply filter_In in Hx as [Hx1 Hx2]. apply filter_In in Hx1 as [Hx1 _]. unfold sel1 in Hx2. destruct (assoc m (e_dst x)) eqn:Ex; [|discriminate].
          apply assoc_In in Ex. assert (Hd1 : In (e_dst x) (map fst m)) by (now apply in_map with (f := fst) in Ex).
          rewrite (edge_eta x) in Hx1. apply Hnew in Hx1. apply Hjn in Hx1 as [Hx1 _]. apply Hfn in Hd1. congruence. }
        assert (Hn1 : forall e, In e n1 <-> In e (flat_map (fun e => match assoc m (e_dst e) with Some c => [(j, c, e_typ e)] | None => [] end) (out_edges g i))).
        { intros e. rewrite Hn1p. symmetry. apply in_rev. }
        assert (Hn1b : forall a b t, In (a, b, t) n1 -> In b (map snd m)).
        { intros a b t Hin. apply Hn1 in Hin. apply in_flat_map in Hin as (x & _ & Hin). destruct (assoc m (e_dst x)) as [c|] eqn:Ec; [|destruct Hin].
          destruct Hin as [E|[]]. injection E as <- <- <-. apply assoc_In in Ec. now apply in_map with (f := snd) in Ec. }
        assert (Hin : in_edges gx i = in_edges g i).
        { unfold in_edges. rewrite Hex1, He, !filter_app.
          assert (Hz : forall nn : list edge, (forall a b t, In (a, b, t) nn -> In b (map snd m)) -> filter (fun e => Nat.eqb (e_dst e) i) nn = []).
          { intros nn Hnn. destruct (filter _ nn) as [|e r] eqn:Er; [reflexivity|]. exfalso. assert (Hx : In e (filter (fun e => Nat.eqb (e_dst e) i) nn)) by (rewrite Er; now left).
            apply filter_In in Hx as [Hx1 Hx2]. apply Nat.eqb_eq in Hx2. rewrite (edge_eta e) in Hx1. apply Hnn in Hx1. rewrite Hx2 in Hx1.
            apply Hjn in Hx1 as [Hx1 _]. assert (Hi : In i (map fst m)) by (now apply in_map with (f := fst) in Hij). apply Hfn in Hi. congruence. }
          rewrite ?app_assoc, ?filter_app, ?app_nil_r. pose proof (Hz _ Hn1b) as Z1. pose proof (Hz _ Hnew) as Z2. unfold edge in *. etransitivity; [apply (f_equal2 (@app _)); [apply (f_equal2 (@app _) Z1 Z2)|reflexivity]|]. reflexivity. }
        rewrite Hin in Hy.
        apply (add_edges_spec _ e_src (fun _ => j) (fun _ _ => DERIVE) (fun e => etype_eqb (e_typ e) DERIVE)) in Hy; auto.
        2: { intros e He2 _. apply in_edges_In in He2 as [He2 _]. rewrite (edge_eta e) in He2. apply (wf_edge g W) in He2 as [He2 _].
             assert (Hj1 : In j (map snd m)) by (now apply in_map with (f := snd) in Hij). apply Hjn in Hj1 as [_ Hj1].
             apply (keeps_exists _ _ _ Hk1) in He2. unfold get_slot in *. rewrite Hsx, Hs. auto. }
        destruct Hy as (Wy & Hsy & Hfy & Hpy & Hey).
        set (n2 := rev (map (fun e : edge => (e_src e, j, DERIVE)) (filter (fun e : edge => etype_eqb (e_typ e) DERIVE) (in_edges g i)))) in *.
        assert (Hn2p : n2 = rev (flat_map (fun e => if etype_eqb (e_typ e) DERIVE then [(e_src e, j, DERIVE)] else []) (in_edges g i))).
        { unfold n2. now rewrite (flat_map_if (fun e : edge => etype_eqb (e_typ e) DERIVE) (fun e => (e_src e, j, DERIVE))). }
        assert (Hn2 : forall e, In e n2 <-> In e (flat_map (fun e => if etype_eqb (e_typ e) DERIVE then [(e_src e, j, DERIVE)] else []) (in_edges g i))).
        { intros e. rewrite Hn2p. symmetry. apply in_rev. }
        apply (IH (fun x Hx => Hl x (or_intror Hx)) gc _ gb (n2 ++ n1 ++ new0)) in Hk; auto.
        2: { now rewrite Hsy, Hsx. }
        2: { rewrite Hey, Hex1, He. now rewrite <- !app_assoc. }
        2: { intros a b t Hin1. apply in_app_or in Hin1 as [Hin1|Hin1]; [|apply in_app_or in Hin1 as [Hin1|Hin1]; eauto].
             apply Hn2 in Hin1. apply in_flat_map in Hin1 as (x & _ & Hx). destruct (etype_eqb (e_typ x) DERIVE); [|destruct Hx]. destruct Hx as [E|[]].
             injection E as <- <- <-. now apply in_map with (f := snd) in Hij. }
        destruct Hk as (new & Wb & Hsb & Heb & Hnb & Hnew'). exists new. conj; auto.
        rewrite Hnew'. cbn [flat_map]. unfold phi at 2. cbn [copied]. rewrite Hn1p, Hn2p, <- !Permutation_rev. apply perm_swap2. }
    destruct (Hstep m (incl_refl m) g1 wa g2 [] H2 W1 eq_refl) as (new & W2 & Hs2 & He2 & Hnb & Hperm); [exact He1|easy|].
    rewrite app_nil_r in Hperm.
    assert (Hnew : forall e, In e new <-> exists ij, In ij m /\ In e (phi ij)).
    { intros e. rewrite <- in_flat_map. split; intros Hin; [rewrite <- Hperm|rewrite Hperm]; exact Hin. }
    assert (Hsl2 : forall k, get_slot g2 k = get_slot g1 k) by (intros k; unfold get_slot; now rewrite Hs2).
    set (done := match get_node g src with Some n => n_done n | None => false end) in *.
    set (sel3 := fun e : edge => match assoc m (e_dst e) with Some _ => true | None => false end).
    set (dst3 := fun e : edge => match assoc m (e_dst e) with Some c => c | None => 0%nat end).
    apply (add_edges_spec _ (fun _ => target) dst3
             (fun g0 e => if is_elem g0 (dst3 e) then (if done then CHILD_RESOLVED else CHILD_UNRESOLVED) else PLACEHOLDER) sel3) in H3; auto.
    2: { intros. unfold attach, sel3, dst3. destruct (assoc m (e_dst x)); reflexivity. }
    2: { intros ga gb x E. unfold is_elem. now rewrite (get_node_slots _ _ _ E). }
    2: { intros e _ Hsel. unfold sel3, dst3 in *. destruct (assoc m (e_dst e)) as [c|] eqn:Ec; [|discriminate]. rewrite !Hsl2. split.
         - now apply (keeps_exists _ _ _ Hk1).
         - apply assoc_In in Ec. assert (Hc1 : In c (map snd m)) by (now apply in_map with (f := snd) in Ec). now apply Hjn in Hc1. }
    destruct H3 as (W3 & Hs3 & _ & _ & He3).
    assert (Hsl3 : forall k, get_slot g' k = get_slot g1 k) by (intros k; unfold get_slot; now rewrite Hs3, Hs2).
    exists m. constructor; auto.
    - intros i s Hi. rewrite Hsl3. now apply Hk1.
    - intros i. rewrite Hfst. apply Hd.
    - intros i j Hij. rewrite Hsl3. now apply Hm.
    - intros k Hk. rewrite Hsl3 in Hk. now apply Hex.
    - rewrite He3, He2, app_assoc. eexists. split; [reflexivity|]. intros a b t. rewrite in_app_iff, <- in_rev, in_map_iff.
      setoid_rewrite filter_In. rewrite Hnew. split.
      + intros [(e & E & Hin & Hsel)|([i j] & Hij & Hin)].
        * right. right. injection E as <- <- <-. split; [reflexivity|]. unfold sel3, dst3 in *. destruct (assoc m (e_dst e)) as [c|] eqn:Ec; [|discriminate].
          apply out_edges_In in Hin as [Hin Hsrc]. rewrite He2 in Hin. assert (Hc := Ec). apply assoc_In in Ec.
          apply in_app_or in Hin as [Hin|Hin].
          { exfalso. rewrite (edge_eta e) in Hin. apply Hnb in Hin. apply Hjn in Hin as [Hin _].
            assert (Hf1 : In (e_dst e) (map fst m)) by (now apply in_map with (f := fst) in Ec). apply Hfn in Hf1. congruence. }
          exists (e_dst e), (e_typ e). rewrite <- Hsrc, <- edge_eta. conj; auto. unfold attach_type. fold done.
          assert (Hel : is_elem g2 c = is_elem g (e_dst e)).
          { unfold is_elem, get_node. rewrite Hsl2. destruct (Hm _ _ Ec) as [_ ->]. reflexivity. }
          now rewrite Hel.
        * unfold phi, copied in Hin. apply in_app_or in Hin as [Hin|Hin]; apply in_flat_map in Hin as (e & He & Hin).
          -- left. destruct (assoc m (e_dst e)) as [c|] eqn:Ec; [|destruct Hin]. destruct Hin as [E|[]]. injection E as <- <- <-.
             apply out_edges_In in He as [He Hsrc]. exists i, (e_dst e). apply assoc_In in Ec. rewrite <- Hsrc, <- edge_eta. rewrite Hsrc. auto.
          -- right. left. destruct (etype_eqb (e_typ e) DERIVE) eqn:Et; [|destruct Hin]. destruct Hin as [E|[]]. injection E as <- <- <-.
             apply in_edges_In in He as [He Hdst]. exists i. conj; auto. rewrite (edge_eta e), Hdst in He. destruct (e_typ e); try discriminate. exact He.
      + intros [(i & c & Hi & Hc & He)|[(i & Hi & He & ->)|(-> & c & t0 & He & Hc & ->)]].
        * right. exists (i, a). split; [exact Hi|]. unfold phi, copied. apply in_or_app. left. apply in_flat_map. exists (i, c, t).
          split; [now apply out_edges_In|]. cbn [e_dst e_typ fst snd]. rewrite (assoc_nd _ _ _ Hnf Hc). now left.
        * right. exists (i, b). split; [exact Hi|]. unfold phi, copied. apply in_or_app. right. apply in_flat_map. exists (a, i, DERIVE).
          split; [now apply in_edges_In|]. cbn [e_src e_typ fst snd etype_eqb]. now left.
        * left. exists (src, c, t0). unfold sel3, dst3. cbn [e_dst fst snd]. rewrite (assoc_nd _ _ _ Hnf Hc). conj; auto.
          -- unfold attach_type. fold done. assert (Hel : is_elem g2 b = is_elem g c).
             { unfold is_elem, get_node. rewrite Hsl2. destruct (Hm _ _ Hc) as [_ ->]. reflexivity. }
             now rewrite Hel.
          -- apply out_edges_In. split; [rewrite He2; apply in_or_app; now right|reflexivity].
    - rewrite He3, He2, app_assoc. eexists. split; [reflexivity|]. rewrite Permutation_app_comm. apply Permutation_app; [exact Hperm|].
      rewrite <- Permutation_rev. apply Permutation_refl'. unfold attached.
      rewrite (flat_map_sel (fun e : edge => assoc m (e_dst e)) (fun e c => (target, c, attach_type (e_dst e))) 0%nat).
      assert (Ho : filter sel3 (out_edges g2 src) = filter sel3 (out_edges g src)).
      { unfold out_edges. rewrite He2, !filter_app. destruct (filter sel3 (filter _ new)) as [|x r] eqn:Er; [reflexivity|]. exfalso.
        assert (Hx : In x (filter sel3 (filter (fun e => Nat.eqb (e_src e) src) new))) by (rewrite Er; now left).
        apply filter_In in Hx as [Hx1 Hx2]. apply filter_In in Hx1 as [Hx1 _]. unfold sel3 in Hx2. destruct (assoc m (e_dst x)) eqn:Ex; [|discriminate].
        apply assoc_In in Ex. assert (Hd1 : In (e_dst x) (map fst m)) by (now apply in_map with (f := fst) in Ex).
        rewrite (edge_eta x) in Hx1. apply Hnb in Hx1. apply Hjn in Hx1 as [Hx1 _]. apply Hfn in Hd1. congruence. }
      rewrite Ho. apply map_ext_in. intros e He. apply filter_In in He as [He Hsel]. unfold sel3, dst3 in *.
      destruct (assoc m (e_dst e)) as [c|] eqn:Ec; [|discriminate]. f_equal. unfold attach_type. fold done.
      apply assoc_In in Ec. assert (Hel : is_elem g2 c = is_elem g (e_dst e)).
      { unfold is_elem, get_node. rewrite Hsl2. destruct (Hm _ _ Ec) as [_ ->]. reflexivity. }
      now rewrite Hel.
  Qed.
End Replicate.
