(** * TopoFacts: the topological order and the bottom-up traversal visit every node, in the right order. *)
From Verif Require Import Base PyStr PyInt Types DimModel EnumModel ElemModel ResolveModel GraphFacts ReplicateFacts ResolveWF.

Lemma filter_length_lt {A} (p q : A -> bool) l x : (forall y, p y = true -> q y = true) -> In x l -> q x = true -> p x = false ->
  (length (filter p l) < length (filter q l))%nat.
Proof.
  intros Hpq. induction l as [|y l IH]; intros Hx Hq Hp; [destruct Hx|]. cbn [filter].
  assert (Hle : (length (filter p l) <= length (filter q l))%nat).
  { clear -Hpq. induction l as [|y l IH]; cbn [filter]; [lia|]. destruct (p y) eqn:E; [rewrite (Hpq _ E); cbn; lia|]. destruct (q y); cbn; lia. }
  destruct Hx as [->|Hx].
  - rewrite Hq, Hp. cbn. lia.
  - specialize (IH Hx Hq Hp). destruct (p y) eqn:E; [rewrite (Hpq _ E); cbn; lia|]. destruct (q y); cbn; lia.
Qed.

Lemma NoDup_app_iff {A} (l1 l2 : list A) : NoDup (l1 ++ l2) <-> NoDup l1 /\ NoDup l2 /\ forall x, In x l1 -> ~ In x l2.
Proof.
  split; [intros H; apply NoDup_app_inv in H as (? & ? & ?); auto|]. intros (H1 & H2 & H3). apply NoDup_app_intro; auto.
Qed.

(** a non-empty set of nodes of an acyclic graph has an element without predecessor / without successor in the set *)
Lemma exists_source g l : WF g -> l <> [] -> exists i, In i l /\ forall j, In j l -> ~ Step g j i.
Proof.
  intros W Hne. destruct l as [|x0 l0]; [congruence|]. set (l := x0 :: l0) in *. clear Hne.
  assert (Hx : In x0 l) by (left; reflexivity). clearbody l. clear l0.
  set (f := fun i => length (filter (fun j => reaches g j i) l)).
  remember (f x0) as k eqn:Ek. revert x0 Hx Ek. induction k as [k IH] using (well_founded_induction lt_wf). intros i Hi ->.
  destruct (existsb (fun j => mem_nat i (successors g j)) l) eqn:E.
  - apply existsb_exists in E as (j & Hj & E). apply mem_nat_In in E. apply successors_In in E. apply (IH (f j)) with (x0 := j); auto.
    unfold f. apply (filter_length_lt _ _ l i); auto.
    + intros y Hy. apply reaches_spec in Hy. apply reaches_spec. eapply rt_trans; [exact Hy|]. now apply rt_step.
    + apply reaches_spec. apply rt_refl.
    + apply Bool.not_true_is_false. rewrite reaches_spec. now apply (wf_acyclic _ W).
  - exists i. split; [exact Hi|]. intros j Hj Hs. assert (X : existsb (fun j => mem_nat i (successors g j)) l = true); [|congruence].
    apply existsb_exists. exists j. split; [exact Hj|]. apply mem_nat_In. now apply successors_In.
Qed.
Lemma exists_sink g l : WF g -> l <> [] -> exists i, In i l /\ forall j, In j l -> ~ Step g i j.
Proof.
  intros W Hne. destruct l as [|x0 l0]; [congruence|]. set (l := x0 :: l0) in *. clear Hne.
  assert (Hx : In x0 l) by (left; reflexivity). clearbody l. clear l0.
  set (f := fun i => length (filter (fun j => reaches g i j) l)).
  remember (f x0) as k eqn:Ek. revert x0 Hx Ek. induction k as [k IH] using (well_founded_induction lt_wf). intros i Hi ->.
  destruct (existsb (fun j => mem_nat j (successors g i)) l) eqn:E.
  - apply existsb_exists in E as (j & Hj & E). apply mem_nat_In in E. apply successors_In in E. apply (IH (f j)) with (x0 := j); auto.
    unfold f. apply (filter_length_lt _ _ l i); auto.
    + intros y Hy. apply reaches_spec in Hy. apply reaches_spec. eapply rt_trans; [|exact Hy]. now apply rt_step.
    + apply reaches_spec. apply rt_refl.
    + apply Bool.not_true_is_false. rewrite reaches_spec. now apply (wf_acyclic _ W).
  - exists i. split; [exact Hi|]. intros j Hj Hs. assert (X : existsb (fun j => mem_nat j (successors g i)) l = true); [|congruence].
    apply existsb_exists. exists j. split; [exact Hj|]. apply mem_nat_In. now apply successors_In.
Qed.

(** [order] lists every edge's source before its target *)
Definition Forward (g : graph) (order : list nat) : Prop := forall a b, In a order -> In b order -> Step g a b -> exists l1 l2 l3, order = l1 ++ a :: l2 ++ b :: l3.

(** ** the topological order *)
Lemma available_spec g todo i : In i (available g todo) <-> In i todo /\ forall j, In j todo -> ~ Step g j i.
Proof.
  unfold available. rewrite filter_In, negb_true_iff. split.
  - intros [Hi E]. split; [exact Hi|]. intros j Hj [t Ht]. assert (X : existsb (fun e => mem_nat (e_src e) todo) (in_edges g i) = true); [|congruence].
    apply existsb_exists. exists (j, i, t). split; [apply in_edges_In; auto|]. now apply mem_nat_In.
  - intros [Hi H]. split; [exact Hi|]. apply Bool.not_true_is_false. intros X. apply existsb_exists in X as (e & He & Hm).
    apply in_edges_In in He as [He <-]. apply mem_nat_In in Hm. apply (H _ Hm). exists (e_typ e). now rewrite <- edge_eta.
Qed.
Lemma pick_In g l i : pick g l = Some i -> In i l.
Proof.
  unfold pick. destruct (find _ l) eqn:E; [intros H; injection H as <-; now apply find_some in E|]. destruct l; [discriminate|]. intros H; injection H as <-. now left.
Qed.
Lemma pick_None g l : pick g l = None -> l = [].
Proof. unfold pick. destruct (find _ l); [discriminate|]. destruct l; [reflexivity|discriminate]. Qed.

Lemma filter_neq_length i l : NoDup l -> In i l -> S (length (filter (fun j => negb (Nat.eqb j i)) l)) = length l.
Proof.
  induction l as [|x l IH]; intros Hn Hi; [destruct Hi|]. inversion Hn as [|? ? Hx Hn' E]; subst. cbn [filter length]. destruct (Nat.eqb_spec x i) as [->|Hne].
  - cbn. f_equal. f_equal. clear -Hx. induction l as [|y l IH]; [reflexivity|]. cbn [filter]. destruct (Nat.eqb_spec y i) as [->|]; cbn; [destruct Hx; now left|].
    f_equal. apply IH. intros H. apply Hx. now right.
  - cbn. f_equal. apply IH; auto. destruct Hi; [congruence|assumption].
Qed.
Lemma filter_neq_perm i l : NoDup l -> In i l -> Permutation (i :: filter (fun j => negb (Nat.eqb j i)) l) l.
Proof.
  intros Hn Hi. apply NoDup_Permutation; [|exact Hn|].
  - constructor; [|now apply NoDup_filter]. rewrite filter_In. intros [_ E]. rewrite Nat.eqb_refl in E. discriminate.
  - intros x. cbn [In]. rewrite filter_In, negb_true_iff, Nat.eqb_neq. destruct (Nat.eq_dec x i) as [->|]; intuition congruence.
Qed.

Lemma topo_spec g fuel : forall todo, WF g -> NoDup todo -> (length todo <= fuel)%nat ->
  Permutation (topo g fuel todo) todo /\ Forward g (topo g fuel todo).
Proof.
  induction fuel as [|fuel IH]; intros todo W Hn Hl; cbn [topo].
  { destruct todo; cbn in Hl; [|lia]. split; [reflexivity|intros a b []]. }
  destruct (pick g (available g todo)) as [i|] eqn:E.
  - apply pick_In in E. apply available_spec in E as [Hi Hno]. set (rest := filter (fun j => negb (Nat.eqb j i)) todo).
    destruct (IH rest W) as [HP HF].
    { now apply NoDup_filter. }
    { assert (X := filter_neq_length i todo Hn Hi). fold rest in X. lia. }
    assert (HP' : Permutation (i :: topo g fuel rest) todo).
    { etransitivity; [apply perm_skip, HP|]. now apply filter_neq_perm. }
    split; [exact HP'|]. intros a b Ha Hb Hs. destruct Ha as [<-|Ha], Hb as [<-|Hb].
    + exfalso. eapply (wf_acyclic _ W); [exact Hs|apply rt_refl].
    + apply in_split in Hb as (l1 & l2 & ->). exists [], l1, l2. reflexivity.
    + exfalso. apply (Hno a); [|exact Hs]. eapply Permutation_in in HP; [|exact Ha]. unfold rest in HP. apply filter_In in HP. tauto.
    + destruct (HF a b Ha Hb Hs) as (l1 & l2 & l3 & ->). exists (i :: l1), l2, l3. reflexivity.
  - apply pick_None in E. destruct todo as [|x todo]; [split; [reflexivity|intros a b []]|].
    destruct (exists_source g (x :: todo) W) as (i & Hi & Hno); [discriminate|].
    assert (X : In i (available g (x :: todo))) by (now apply available_spec). rewrite E in X. destruct X.
Qed.

Lemma topological_sorted_spec g nodes : WF g ->
  NoDup (topological_sorted g nodes) /\ Forward g (topological_sorted g nodes) /\
  forall i, In i (topological_sorted g nodes) <-> In i nodes /\ unprocessed g i = true.
Proof.
  intros W. unfold topological_sorted. set (todo := filter _ _). assert (Hn : NoDup todo) by (apply NoDup_filter, node_indices_NoDup).
  destruct (topo_spec g (length todo) todo W Hn (le_n _)) as [HP HF]. split; [eapply Permutation_NoDup; [symmetry; exact HP|exact Hn]|]. split; [exact HF|].
  intros i. rewrite HP. unfold todo. rewrite filter_In, andb_true_iff, mem_nat_In, node_indices_In. split; [tauto|]. intros [Hi Hu]. repeat split; auto.
  unfold unprocessed, get_node in Hu. destruct (get_slot g i); [discriminate|discriminate].
Qed.

(** ** the bottom-up traversal *)
Definition visit (g0 : graph) (st : graph * option (list iper)) (i : nat) : M (graph * option (list iper)) :=
  match successors g0 i with [] => ret st | children => finalize_node st i children end.

Definition count (pending : list (nat * nat)) (i : nat) : nat := match find (fun x => Nat.eqb (fst x) i) pending with Some x => snd x | None => 0%nat end.
Lemma dec_fst pending p : map fst (dec_pending pending p) = map fst pending.
Proof. unfold dec_pending. rewrite map_map. apply map_ext. intros [i k]. cbn. destruct (Nat.eqb i p); reflexivity. Qed.
Lemma count_dec pending p i : In i (map fst pending) -> count (dec_pending pending p) i = if Nat.eqb i p then pred (count pending i) else count pending i.
Proof.
  unfold count, dec_pending. induction pending as [|[j k] l IH]; [intros []|]. cbn [map find fst snd]. destruct (Nat.eqb_spec j p) as [->|Hjp]; cbn [fst snd].
  - destruct (Nat.eqb_spec p i) as [->|Hpi]; cbn [snd]; [now rewrite Nat.eqb_refl|]. intros [E|H]; [congruence|]. now apply IH.
  - destruct (Nat.eqb_spec j i) as [->|Hji]; cbn [snd].
    + destruct (Nat.eqb_spec i p); [congruence|reflexivity].
    + intros [E|H]; [congruence|]. now apply IH.
Qed.
Lemma zero_count pending p : NoDup (map fst pending) -> In p (map fst pending) ->
  existsb (fun x => Nat.eqb (fst x) p && Nat.eqb (snd x) 0) pending = Nat.eqb (count pending p) 0.
Proof.
  unfold count. induction pending as [|[j k] l IH]; [intros _ []|]. cbn [map fst snd existsb find]. intros Hn Hp. inversion Hn as [|? ? Hj Hn' E]; subst.
  destruct (Nat.eqb_spec j p) as [->|Hjp]; cbn [andb orb snd].
  - destruct (Nat.eqb k 0); [reflexivity|]. cbn. apply Bool.not_true_is_false. intros X. apply existsb_exists in X as ([a b] & Ha & Hab). cbn in Hab.
    apply andb_true_iff in Hab as [Hab _]. apply Nat.eqb_eq in Hab. subst a. apply Hj. apply in_map_iff. now exists (p, b).
  - apply IH; auto. destruct Hp; [congruence|assumption].
Qed.

(** the parents of a popped node: decremented once each; those whose count becomes 0 are queued *)
Lemma step_parents ps : forall pending queue pending' queue', NoDup ps -> NoDup (map fst pending) -> (forall p, In p ps -> In p (map fst pending)) ->
  fold_left step_parent ps (pending, queue) = (pending', queue') ->
  map fst pending' = map fst pending /\
  (forall i, In i (map fst pending) -> count pending' i = if mem_nat i ps then pred (count pending i) else count pending i) /\
  queue' = queue ++ filter (fun p => Nat.eqb (pred (count pending p)) 0) ps.
Proof.
  induction ps as [|p ps IH]; intros pending queue pending' queue' Hn Hnd Hin H; cbn [fold_left] in H.
  - injection H as <- <-. split; [reflexivity|]. split; [reflexivity|]. cbn. now rewrite app_nil_r.
  - unfold step_parent in H at 2. cbn [fst snd] in H. inversion Hn as [|? ? Hp Hn' E]; subst.
    assert (Hpin : In p (map fst pending)) by (apply Hin; now left).
    apply IH in H; [|exact Hn'|now rewrite dec_fst|intros q Hq; rewrite dec_fst; apply Hin; now right].
    destruct H as (H1 & H2 & H3). rewrite dec_fst in *. split; [exact H1|]. split.
    + intros i Hi. rewrite (H2 i Hi), !(count_dec _ _ _ Hi). cbn [mem_nat existsb]. fold (mem_nat i ps). destruct (Nat.eqb_spec i p) as [->|]; cbn [orb]; [|reflexivity].
      replace (mem_nat p ps) with false; [reflexivity|]. symmetry. now apply mem_nat_nIn.
    + rewrite H3, zero_count; [|now rewrite dec_fst|now rewrite dec_fst]. rewrite (count_dec _ _ _ Hpin), Nat.eqb_refl.
      cbn [filter]. assert (Ef : filter (fun q => Nat.eqb (pred (count (dec_pending pending p) q)) 0) ps = filter (fun q => Nat.eqb (pred (count pending q)) 0) ps).
      { apply filter_ext_in. intros q Hq. rewrite count_dec; [|apply Hin; now right]. destruct (Nat.eqb_spec q p) as [->|]; [contradiction|reflexivity]. }
      rewrite Ef. destruct (Nat.eqb (pred (count pending p)) 0); [|reflexivity]. now rewrite <- app_assoc.
Qed.

Section BottomUp.
  Context (g : graph) (W : WF g).
  (** number of successors not yet popped *)
  Definition open (P : list nat) (i : nat) : nat := length (filter (fun c => negb (mem_nat c P)) (successors g i)).
  Record BU (P : list nat) (pending : list (nat * nat)) (queue : list nat) : Prop := {
    bu_fst : map fst pending = node_indices g;
    bu_count : forall i, In i (node_indices g) -> count pending i = open P i;
    bu_nd : NoDup (queue ++ P);
    bu_in : forall i, In i (queue ++ P) -> In i (node_indices g);
    bu_queue : forall i, In i (node_indices g) -> ~ In i P -> (In i queue <-> open P i = 0%nat);
    bu_closed : forall i c, In i P -> Step g i c -> In c P }.

  Lemma open_zero P i : open P i = 0%nat <-> forall c, Step g i c -> In c P.
  Proof.
    unfold open. split.
    - intros H c Hc. apply successors_In in Hc. destruct (filter _ _) as [|x l] eqn:E; [|discriminate].
      destruct (mem_nat c P) eqn:Em; [now apply mem_nat_In|]. assert (X : In c []) by (rewrite <- E; apply filter_In; rewrite Em; auto). destruct X.
    - intros H. destruct (filter _ _) as [|x l] eqn:E; [reflexivity|]. assert (X : In x (x :: l)) by (now left). rewrite <- E in X.
      apply filter_In in X as [Hx Hm]. apply successors_In, H in Hx. apply mem_nat_In in Hx. rewrite Hx in Hm. discriminate.
  Qed.
  Lemma open_cons P i p : ~ In i P -> open P p = if mem_nat i (successors g p) then S (open (i :: P) p) else open (i :: P) p.
  Proof.
    intros Hi. unfold open. assert (Hn := successors_NoDup g p). induction (successors g p) as [|c l IH]; [reflexivity|]. inversion Hn as [|? ? Hc Hn' E]; subst.
    cbn [filter mem_nat existsb]. fold (mem_nat i l) (mem_nat c P). rewrite (Nat.eqb_sym i c). destruct (Nat.eqb_spec c i) as [->|Hci]; cbn [orb negb].
    - replace (mem_nat i P) with false by (symmetry; now apply mem_nat_nIn). cbn [negb length]. specialize (IH Hn').
      replace (mem_nat i l) with false in IH by (symmetry; now apply mem_nat_nIn). now f_equal.
    - destruct (mem_nat c P); cbn [negb]; [now apply IH|]. cbn [length]. rewrite (IH Hn'). destruct (mem_nat i l); reflexivity.
  Qed.
  Lemma parents_of_In i p : In p (parents_of g i) <-> Step g p i.
  Proof.
    unfold parents_of. rewrite filter_In, mem_nat_In, successors_In, node_indices_In. split; [tauto|]. intros [t H]. split; [|now exists t].
    now apply (wf_edge _ W) in H.
  Qed.

  (** the height of a node: the length of the longest way down from it *)
  Definition Heights (ht : nat -> nat) : Prop := forall i, ht i = list_max (map (fun c => S (ht c)) (successors g i)).
  Lemma height_step ht a b : Heights ht -> Step g a b -> (ht b < ht a)%nat.
  Proof.
    intros H Hs. rewrite (H a). apply successors_In in Hs. assert (K := proj1 (list_max_le (map (fun c => S (ht c)) (successors g a)) _) (le_n _)). rewrite Forall_forall in K.
    exact (K (S (ht b)) (in_map (fun c => S (ht c)) _ _ Hs)).
  Qed.
  Lemma height_le ht i n : Heights ht -> (forall c, Step g i c -> (ht c < n)%nat) -> (ht i <= n)%nat.
  Proof. intros H Hs. rewrite (H i). apply list_max_le. apply Forall_forall. intros x Hx. apply in_map_iff in Hx as (c & <- & Hc). apply successors_In, Hs in Hc. lia. Qed.
  (** the nodes are visited in the order of their heights *)
  Record Level (ht : nat -> nat) (P queue : list nat) : Prop := {
    lv_done : forall j k, In j P -> In k queue -> (ht j <= ht k)%nat;
    lv_sorted : StronglySorted (fun j k => (ht j <= ht k)%nat) queue;
    lv_near : forall j k, In j queue -> In k queue -> (ht k <= S (ht j))%nat }.
  Lemma level_step ht P i queue new : Heights ht -> Level ht P (i :: queue) -> (forall p, In p new -> Step g p i /\ forall c, Step g p c -> In c (i :: P)) -> Level ht (i :: P) (queue ++ new).
  Proof.
    intros H [L1 L2 L3] Hn. apply StronglySorted_inv in L2 as [L2 L4]. rewrite Forall_forall in L4.
    assert (Hnew : forall p, In p new -> ht p = S (ht i)).
    { intros p Hp. destruct (Hn p Hp) as [K1 K2]. apply Nat.le_antisymm; [|exact (height_step ht p i H K1)]. apply height_le; [exact H|]. intros c Kc. apply K2 in Kc as [<-|Kc]; [lia|]. specialize (L1 c i Kc (or_introl eq_refl)). lia. }
    assert (Hle : forall k, In k (queue ++ new) -> (ht i <= ht k <= S (ht i))%nat).
    { intros k Hk. apply in_app_or in Hk as [Hk|Hk]; [|rewrite (Hnew k Hk); lia]. specialize (L4 k Hk). specialize (L3 i k (or_introl eq_refl) (or_intror Hk)). lia. }
    constructor.
    - intros j k [<-|Hj] Hk; specialize (Hle k Hk); [lia|]. specialize (L1 j i Hj (or_introl eq_refl)). lia.
    - assert (Hq : forall k, In k queue -> (ht k <= S (ht i))%nat) by (intros k Hk; apply Hle, in_or_app; now left). clear - L2 Hnew Hq. induction queue as [|x l IH]; cbn [app].
      + clear - Hnew. induction new as [|x l IH]; constructor; [apply IH; intros p Hp; apply Hnew; now right|]. apply Forall_forall. intros y Hy. rewrite (Hnew x), (Hnew y); [lia|now right|now left].
      + apply StronglySorted_inv in L2 as [L2 L4]. rewrite Forall_forall in L4. constructor; [apply IH; [exact L2|]; intros k Hk; apply Hq; now right|].
        apply Forall_forall. intros y Hy. apply in_app_or in Hy as [Hy|Hy]; [auto|]. rewrite (Hnew y Hy). apply Hq. now left.
    - intros j k Hj Hk. specialize (Hle j Hj) as Kj. specialize (Hle k Hk). lia.
  Qed.

  Lemma bottom_up_order fuel : forall P pending queue, BU P pending queue -> (length (node_indices g) <= fuel + length P)%nat ->
    exists order, Permutation (order ++ P) (node_indices g) /\
      (forall a b, In a order -> Step g a b -> In b P \/ exists l1 l2 l3, order = l1 ++ b :: l2 ++ a :: l3) /\
      (forall st, bottom_up g fuel pending queue st = foldM (visit g) st order) /\
      forall ht, Heights ht -> Level ht P queue -> forall l1 a l2 j, order = l1 ++ a :: l2 -> In j P \/ In j l1 -> (ht j <= ht a)%nat.
  Proof.
    induction fuel as [|fuel IH]; intros P pending queue B Hl; destruct queue as [|i queue].
    1, 3: exists []; split; [|split; [intros a b []|split; [intros st; destruct st; reflexivity|intros ht _ _ [|? ?] ? ? ? K; discriminate K]]]; cbn [app];
      apply NoDup_Permutation; [apply (bu_nd _ _ _ B)|apply node_indices_NoDup|]; intros x; split; [apply (bu_in _ _ _ B)|]; intros Hx;
      destruct (mem_nat x P) eqn:Em; [now apply mem_nat_In|]; exfalso; apply mem_nat_nIn in Em;
      destruct (exists_sink g (filter (fun j => negb (mem_nat j P)) (node_indices g)) W) as (s & Hs & Hno);
      [intros E; assert (X : In x []) by (rewrite <- E; apply filter_In; split; [exact Hx|]; apply negb_true_iff; now apply mem_nat_nIn); destruct X|];
      apply filter_In in Hs as [Hs HsP]; apply negb_true_iff, mem_nat_nIn in HsP;
      assert (Z : In s []) by (apply (bu_queue _ _ _ B s Hs HsP); apply open_zero; intros c Hc; destruct (mem_nat c P) eqn:Ec; [now apply mem_nat_In|];
        exfalso; apply (Hno c); [|exact Hc]; apply filter_In; rewrite Ec; split; [|reflexivity]; apply node_indices_In; destruct Hc as [t Ht]; now apply (wf_edge _ W) in Ht);
      destruct Z.
    - exfalso. assert (X := bu_nd _ _ _ B). assert (length (i :: queue ++ P) <= length (node_indices g))%nat.
      { apply NoDup_incl_length; [exact X|]. intros x Hx. now apply (bu_in _ _ _ B). }
      cbn in H. rewrite app_length in H. lia.
    - assert (Hnd := bu_nd _ _ _ B). cbn [app] in Hnd. inversion Hnd as [|? ? Hnin Hnd' E]; subst.
      assert (HiP : ~ In i P) by (intros X; apply Hnin; apply in_or_app; now right).
      assert (Hi : In i (node_indices g)) by (apply (bu_in _ _ _ B); now left).
      assert (Hnds : NoDup (map fst pending)) by (rewrite (bu_fst _ _ _ B); apply node_indices_NoDup).
      assert (Hpin : forall p, In p (parents_of g i) -> In p (map fst pending)).
      { intros p Hp. rewrite (bu_fst _ _ _ B). unfold parents_of in Hp. apply filter_In in Hp. tauto. }
      destruct (fold_left step_parent (parents_of g i) (pending, queue)) as [pending' queue'] eqn:Ef.
      destruct (step_parents _ _ _ _ _ (NoDup_filter _ (node_indices_NoDup g)) Hnds Hpin Ef) as (F1 & F2 & F3). fold (parents_of g i) in F2, F3.
      assert (Hio : open P i = 0%nat) by (apply (bu_queue _ _ _ B i Hi HiP); now left).
      assert (B' : BU (i :: P) pending' queue').
      { constructor.
        - rewrite F1. apply (bu_fst _ _ _ B).
        - intros j Hj. rewrite F2 by (now rewrite (bu_fst _ _ _ B)). rewrite (bu_count _ _ _ B j Hj), (open_cons P i j HiP).
          destruct (mem_nat j (parents_of g i)) eqn:Em.
          + apply mem_nat_In, parents_of_In, successors_In, mem_nat_In in Em. rewrite Em. reflexivity.
          + destruct (mem_nat i (successors g j)) eqn:Es; [|reflexivity]. apply mem_nat_nIn in Em. exfalso. apply Em. apply parents_of_In. now apply successors_In, mem_nat_In.
        - rewrite F3. rewrite <- app_assoc. apply NoDup_app_iff. split; [now apply NoDup_app_inv in Hnd'|]. split.
          + apply NoDup_app_iff. split; [apply NoDup_filter, NoDup_filter, node_indices_NoDup|]. split; [constructor; [exact HiP|now apply NoDup_app_inv in Hnd']|].
            intros x Hx Hx'. apply filter_In in Hx as [Hx _]. apply parents_of_In in Hx. destruct Hx' as [<-|Hx'].
            * eapply (wf_acyclic _ W); [exact Hx|apply rt_refl].
            * apply HiP. eapply (bu_closed _ _ _ B); eauto.
          + intros x Hx Hx'. apply in_app_or in Hx' as [Hx'|[<-|Hx']].
            * apply filter_In in Hx' as [Hx' _]. apply parents_of_In in Hx'.
              assert (HxP : ~ In x P). { intros X. assert (Y := proj1 (NoDup_app_iff _ _) Hnd'). destruct Y as (_ & _ & Y). exact (Y x Hx X). }
              assert (Hxo : open P x = 0%nat). { apply (bu_queue _ _ _ B); [apply (bu_in _ _ _ B); right; apply in_or_app; now left|exact HxP|now right]. }
              rewrite open_zero in Hxo. apply HiP. now apply Hxo.
            * apply Hnin. apply in_or_app. now left.
            * assert (Y := proj1 (NoDup_app_iff _ _) Hnd'). destruct Y as (_ & _ & Y). exact (Y x Hx Hx').
        - intros x Hx. rewrite F3 in Hx. rewrite <- app_assoc in Hx. apply in_app_or in Hx as [Hx|Hx]; [apply (bu_in _ _ _ B); right; apply in_or_app; now left|].
          apply in_app_or in Hx as [Hx|[<-|Hx]]; [|exact Hi|apply (bu_in _ _ _ B); right; apply in_or_app; now right].
          apply filter_In in Hx as [Hx _]. unfold parents_of in Hx. apply filter_In in Hx. tauto.
        - intros j Hj HjP. assert (HjP' : ~ In j P) by (intros X; apply HjP; now right). assert (Hji : j <> i) by (intros ->; apply HjP; now left).
          rewrite F3, in_app_iff, filter_In, parents_of_In, Nat.eqb_eq, (bu_count _ _ _ B j Hj). assert (Hq := bu_queue _ _ _ B j Hj HjP').
          cbn [In] in Hq. assert (Ho := open_cons P i j HiP). destruct (mem_nat i (successors g j)) eqn:Em.
          + apply mem_nat_In, successors_In in Em. rewrite Ho in *. cbn [pred]. split; [|tauto]. intros [Hx|[_ Hx]]; [|exact Hx].
            assert (X : S (open (i :: P) j) = 0%nat) by (apply Hq; auto). discriminate.
          + apply mem_nat_nIn in Em. rewrite successors_In in Em. rewrite Ho in *. intuition congruence.
        - intros x c [<-|Hx] Hc; [right; rewrite open_zero in Hio; auto|right; eapply (bu_closed _ _ _ B); eauto]. }
      destruct (IH (i :: P) pending' queue' B') as (order & HP & HF & HE & HL). { cbn [length]. lia. }
      exists (i :: order). split; [|split; [|split]].
      + etransitivity; [|exact HP]. cbn [app]. apply Permutation_middle.
      + intros a b Ha Hs. destruct Ha as [<-|Ha].
        * left. rewrite open_zero in Hio. auto.
        * destruct (HF a b Ha Hs) as [[<-|Hb]|(l1 & l2 & l3 & ->)]; [|now left|right; exists (i :: l1), l2, l3; reflexivity].
          right. apply in_split in Ha as (l1 & l2 & ->). exists [], l1, l2. reflexivity.
      + intros st. cbn [bottom_up foldM]. fold (visit g st i). destruct (visit g st i) as [w [st'|e]]; cbn [bind]; [|reflexivity].
        rewrite Ef, HE. reflexivity.
      + intros ht Hh HLv l1 a l2 j El Hj. destruct l1 as [|x l1]; cbn [app] in El; injection El as <- El.
        * destruct Hj as [Hj|[]]. apply (lv_done _ _ _ HLv); [exact Hj|now left].
        * eapply (HL ht Hh); [|exact El|destruct Hj as [Hj|[<-|Hj]]; [left; now right|left; now left|now right]].
          rewrite F3. apply level_step; [exact Hh|exact HLv|]. intros p Hp. assert (Kp := Hp). apply filter_In in Kp as [Kp _]. apply parents_of_In in Kp. split; [exact Kp|].
          assert (K1 : In p (node_indices g)) by (apply node_indices_In; destruct Kp as [t Kp]; now apply (wf_edge _ W) in Kp).
          assert (K2 : ~ In p (i :: P)). { intros [<-|K]; [eapply (wf_acyclic _ W); [exact Kp|apply rt_refl]|]. apply HiP. eapply (bu_closed _ _ _ B); eauto. }
          apply open_zero. apply (bu_queue _ _ _ B' p K1 K2). rewrite F3. apply in_or_app. now right.
  Qed.

  Lemma bottom_up_traversal_order : exists order, Permutation order (node_indices g) /\
      (forall a b, Step g a b -> exists l1 l2 l3, order = l1 ++ b :: l2 ++ a :: l3) /\
      bottom_up_traversal g = foldM (visit g) (g, None) order /\
      forall ht, Heights ht -> forall l1 a l2 j, order = l1 ++ a :: l2 -> In j l1 -> (ht j <= ht a)%nat.
  Proof.
    set (pending := map (fun i => (i, length (successors g i))) (node_indices g)).
    assert (Hf : map fst pending = node_indices g) by (unfold pending; rewrite map_map; apply map_id).
    assert (Hopen : forall i, open [] i = length (successors g i)).
    { intros i. unfold open. f_equal. induction (successors g i) as [|x l IH]; [reflexivity|]. cbn. now f_equal. }
    assert (Hc : forall i, In i (node_indices g) -> count pending i = open [] i).
    { intros i. rewrite Hopen. unfold pending, count. clear. induction (node_indices g) as [|x l IH]; [intros []|]. cbn [map find fst]. intros Hi.
      destruct (Nat.eqb_spec x i) as [->|Hne]; [reflexivity|]. apply IH. destruct Hi as [E|Hi]; [congruence|exact Hi]. }
    set (leaves := map fst (filter (fun x => Nat.eqb (snd x) 0) pending)).
    assert (Hl : forall i, In i leaves <-> In i (node_indices g) /\ length (successors g i) = 0%nat).
    { intros i. unfold leaves, pending. rewrite in_map_iff. split.
      - intros ([j k] & <- & Hj). apply filter_In in Hj as [Hj Hk]. apply in_map_iff in Hj as (j' & E & Hj). injection E as -> <-. cbn in *. apply Nat.eqb_eq in Hk. auto.
      - intros [Hi Hz]. exists (i, length (successors g i)). split; [reflexivity|]. apply filter_In. split; [apply in_map_iff; eauto|]. cbn. now apply Nat.eqb_eq. }
    destruct (bottom_up_order (length (node_indices g)) [] pending leaves) as (order & HP & HF & HE & HL).
    - constructor; auto.
      + rewrite app_nil_r. unfold leaves. assert (Hn := node_indices_NoDup g). rewrite <- Hf in Hn. clear -Hn. induction pending as [|[i k] l IH]; [constructor|].
        cbn [map fst] in Hn. inversion Hn as [|? ? Hi Hn' E]; subst. cbn [filter snd]. destruct (Nat.eqb k 0); [|auto]. cbn [map fst]. constructor; [|auto].
        intros X. apply Hi. apply in_map_iff in X as (y & Ey & Hy). apply filter_In in Hy as [Hy _]. apply in_map_iff. eauto.
      + intros i. rewrite app_nil_r, Hl. tauto.
      + intros i Hi _. rewrite Hl, Hopen. tauto.
    - cbn. lia.
    - rewrite app_nil_r in HP. exists order. split; [exact HP|]. split; [|split].
      + intros a b Hs. destruct (HF a b) as [[]|H]; auto. eapply Permutation_in; [symmetry; exact HP|]. apply node_indices_In. destruct Hs as [t Ht]. now apply (wf_edge _ W) in Ht.
      + apply HE.
      + intros ht Hh l1 a l2 j El Hj. apply (HL ht Hh) with (l1 := l1) (l2 := l2); [|exact El|now right].
        assert (H0 : forall k, In k leaves -> ht k = 0%nat) by (intros k Hk; apply Hl in Hk as [_ Hk]; rewrite (Hh k); destruct (successors g k); [reflexivity|discriminate]).
        constructor; [intros ? ? []| |intros j0 k K1 K2; rewrite (H0 _ K1), (H0 _ K2); lia].
        clear - H0. induction leaves as [|x l IH]; constructor; [apply IH; intros k Hk; apply H0; now right|]. apply Forall_forall. intros y Hy. rewrite (H0 x), (H0 y); [lia|now right|now left].
  Qed.
  Lemma heights_exist : exists ht, Heights ht.
  Proof.
    destruct bottom_up_traversal_order as (order & HP & HF & _). assert (Hn : NoDup order) by (eapply Permutation_NoDup; [symmetry; exact HP|apply node_indices_NoDup]).
    assert (K : forall l1 l2, order = l1 ++ l2 -> exists ht, forall i, ~ In i l2 -> ht i = list_max (map (fun c => S (ht c)) (successors g i))).
    { induction l1 as [|i l1 IH] using rev_ind; intros l2 El.
      - exists (fun _ => 0%nat). intros i Hi. destruct (successors g i) as [|c l] eqn:Es; [reflexivity|]. exfalso. apply Hi. cbn [app] in El. rewrite <- El. eapply Permutation_in; [symmetry; exact HP|]. apply node_indices_In.
        assert (Kc : In c (successors g i)) by (rewrite Es; now left). apply successors_In in Kc as [t Kc]. now apply (wf_edge _ W) in Kc.
      - rewrite <- app_assoc in El. cbn [app] in El. destruct (IH _ El) as [ht Hh]. exists (fun x => if Nat.eqb x i then list_max (map (fun c => S (ht c)) (successors g i)) else ht x).
        assert (Hnl : forall x c, Step g x c -> ~ In x l2 -> ~ In c (i :: l2)).
        { intros x c Hs Hx Hc. destruct (HF x c Hs) as (k1 & k2 & k3 & E2). rewrite E2 in El.
          assert (N := Hn). rewrite E2 in N. 
          assert (Kx : In x l2). { 
            assert (Hsp : forall (u : list nat) v, u ++ v = k1 ++ c :: k2 ++ x :: k3 -> In c v -> In x v).
            { clear - N. intros u. revert k1 N. induction u as [|a u IH]; intros k1 N v E Hc; cbn [app] in E; [subst v; apply in_or_app; right; right; apply in_or_app; right; now left|].
              destruct k1 as [|b k1]; cbn [app] in E, N; injection E as -> E.
              - inversion N as [|? ? N1 _]; subst. destruct N1. rewrite <- E. apply in_or_app. now right.
              - inversion N; subst. eapply IH; eassumption. }
            destruct (Hsp l1 (i :: l2) (eq_sym El) Hc) as [->|K]; [|exact K]. exfalso. assert (E3 : l1 ++ x :: l2 = (k1 ++ c :: k2) ++ x :: k3) by (rewrite <- app_assoc; exact (eq_sym El)).
            assert (E4 : l2 = k3 /\ l1 = k1 ++ c :: k2).
            { assert (N2 : NoDup (l1 ++ x :: l2)) by (rewrite <- El; exact N). clear - E3 N2. revert E3 N2. generalize (k1 ++ c :: k2). intros m. revert m. induction l1 as [|a l1 IHl]; intros [|b m] E N; cbn [app] in E, N.
              - now inversion E.
              - inversion E; subst. inversion N as [|? ? N1 _]; subst. destruct N1. apply in_or_app. right. now left.
              - inversion E; subst. inversion N as [|? ? N1 _]; subst. destruct N1. apply in_or_app. right. now left.
              - injection E as E1 E2. inversion N; subst. destruct (IHl _ E2) as [-> ->]; [assumption|split; reflexivity]. }
            destruct E4 as [_ E4]. destruct Hc as [->|Hc].
            + eapply (wf_acyclic _ W); [exact Hs|apply rt_refl].
            + assert (N2 : NoDup (l1 ++ x :: l2)) by (rewrite <- El; exact N). apply NoDup_app_iff in N2 as (_ & _ & N2). apply (N2 c); [rewrite E4; apply in_or_app; right; now left|now right]. }
          contradiction. }
        assert (Hni : ~ In i l2). { rewrite El in Hn. apply NoDup_app_iff in Hn as (_ & Hn & _). now inversion Hn. }
        assert (Hex : forall x, ~ In x l2 -> map (fun c => S (if Nat.eqb c i then list_max (map (fun c => S (ht c)) (successors g i)) else ht c)) (successors g x) = map (fun c => S (ht c)) (successors g x)).
        { intros x Hx. apply map_ext_in. intros c Hc. apply successors_In in Hc. destruct (Nat.eqb_spec c i) as [->|]; [|reflexivity]. destruct (Hnl _ _ Hc Hx). now left. }
        intros x Hx. rewrite (Hex x Hx). destruct (Nat.eqb_spec x i) as [->|Hne]; [reflexivity|]. apply Hh. intros [<-|K]; [congruence|contradiction]. }
    destruct (K order [] (eq_sym (app_nil_r order))) as [ht Hh]. exists ht. intros i. apply Hh. intros [].
  Qed.
End BottomUp.
