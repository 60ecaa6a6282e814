(** * BuildOk: building the graph and copying children never fail.  (C49, C52) *)
From Verif Require Import Base PyStr PyInt Types DimModel EnumModel ElemModel ResolveModel ProcessModel GraphFacts ReplicateFacts ResolveWF TopoFacts ResolveInv
  SpecDim SpecElem SpecDeclared SpecExpand PropsDim DescribeFacts ExpandInv ExpandBuild ExpandStep ExpandNode ExpandRounds ExpandShare.
From Coq Require Import Relations.

(** ** Success *)
Definition ok {A} (m : M A) : Prop := exists ws a, m = (ws, Ok a).
Lemma ok_ret {A} (a : A) : ok (ret a). Proof. exists [], a. reflexivity. Qed.
Lemma ok_bind {A B} (m : M A) (f : A -> M B) : ok m -> (forall ws a, m = (ws, Ok a) -> ok (f a)) -> ok (bind m f).
Proof. intros (ws & a & ->) H. destruct (H ws a eq_refl) as (ws' & b & E). exists (ws ++ ws'), b. cbn. now rewrite E. Qed.
Lemma ok_mapM {A B} (f : A -> M B) l : (forall x, In x l -> ok (f x)) -> ok (mapM f l).
Proof.
  induction l as [|x l IH]; intros H; cbn; [apply ok_ret|]. apply ok_bind; [apply H; now left|]. intros ws a _. apply ok_bind; [apply IH; intros y Hy; apply H; now right|]. intros ws' b _. apply ok_ret.
Qed.
Lemma ok_raise_if b c s : b = false -> ok (raise_if b c s). Proof. intros ->. apply ok_ret. Qed.
Lemma ok_foldM {A S} (f : S -> A -> M S) (J : S -> Prop) l : (forall s x, In x l -> J s -> ok (f s x)) -> (forall s x ws s', In x l -> J s -> f s x = (ws, Ok s') -> J s') -> forall s, J s -> ok (foldM f s l).
Proof.
  induction l as [|x l IH]; intros H1 H2 s Hs; cbn; [apply ok_ret|]. apply ok_bind; [apply H1; [now left|exact Hs]|]. intros ws a Ha. apply IH.
  - intros s' y Hy Hs'. apply H1; [now right|exact Hs'].
  - intros s' y w s'' Hy. apply H2. now right.
  - apply (H2 _ _ _ _ (or_introl eq_refl) Hs Ha).
Qed.
Lemma inv_foldM {A S} (f : S -> A -> M S) (J : S -> Prop) l : (forall s x ws s', In x l -> J s -> f s x = (ws, Ok s') -> J s') -> forall s ws s', J s -> foldM f s l = (ws, Ok s') -> J s'.
Proof.
  induction l as [|x l IH]; intros H s ws s' Hs E; cbn in E; [apply ret_ok in E as [<- _]; exact Hs|]. apply bind_ok in E as (w1 & s1 & w2 & E1 & E & _).
  eapply IH; [intros; eapply H; [right|..]; eassumption| |exact E]. eapply H; [left; reflexivity|exact Hs|exact E1].
Qed.

(** ** Edges *)
Lemma no_out g i : WF g -> get_slot g i = None -> forall b, ~ Step g i b.
Proof. intros W H b (t & K). destruct (wf_edge _ W _ _ _ K). contradiction. Qed.
Lemma reach_stuck g i b : (forall b, ~ Step g i b) -> Reach g i b -> i = b.
Proof. intros H K. apply clos_rt_rt1n in K. destruct K as [|x y K _]; [reflexivity|destruct (H _ K)]. Qed.
Lemma add_edge_ok g p c t : ~ Reach g c p -> add_edge_m g p c t = ([], Ok (mk_graph (g_slots g) (g_free g) ((p, c, t) :: g_edges g) (g_phs g))).
Proof.
  intros H. unfold add_edge_m, add_edge. destruct (reaches g c p) eqn:E; [apply reaches_spec in E; contradiction|reflexivity].
Qed.
Lemma add_child_ok g p n t : WF g -> get_slot g p <> None -> ok (add_element_child g p n t).
Proof.
  intros W Hp. unfold add_element_child. destruct (add_node g (NElem n)) as [g1 i] eqn:Ha. destruct (add_node_spec _ _ _ _ W Ha) as (He & _ & Hi & _ & _).
  rewrite add_edge_ok; [eexists; eexists; reflexivity|]. intros K. apply (Reach_edges _ _ He) in K. apply reach_stuck in K; [congruence|]. now apply no_out.
Qed.
(** edges of an acyclic relation can be added *)
Definition Within (T : nat -> nat -> Prop) (g : graph) : Prop := forall a b, Step g a b -> T a b.
Definition Acyclic (T : nat -> nat -> Prop) : Prop := forall a b, T a b -> ~ clos_refl_trans nat T b a.
Lemma rt_within (T : nat -> nat -> Prop) g a b : Within T g -> Reach g a b -> clos_refl_trans nat T a b.
Proof. intros H K. induction K; [apply rt_step; auto|apply rt_refl|eapply rt_trans; eassumption]. Qed.
Lemma within_ok T g p c t : Within T g -> Acyclic T -> T p c -> ok (add_edge_m g p c t) /\ forall ws g', add_edge_m g p c t = (ws, Ok g') -> Within T g' /\ g_slots g' = g_slots g.
Proof.
  intros Hw Ha Ht. rewrite add_edge_ok; [|intros K; apply (Ha _ _ Ht); now apply (rt_within T g)]. split; [eexists; eexists; reflexivity|]. intros ws g' E. injection E as _ <-. split; [|reflexivity].
  intros a b (u & [K|K]); [injection K as <- <- _; exact Ht|]. apply Hw. exists u. exact K.
Qed.

(** ** Building the graph *)
(** every placeholder leads to one element and nothing leads to it *)
Definition PhOut (g : graph) (h c : nat) : Prop := is_elem g c = true /\ out_edges g h = [(h, c, PLACEHOLDER)].
Definition PhOne (g : graph) : Prop := forall h path, get_slot g h = Some (NPh path) -> (exists c, PhOut g h c) /\ in_edges g h = [].
(** every derived element has a placeholder *)
Definition DH (X : nat -> Prop) (g : graph) : Prop := forall c n, ~ X c -> get_node g c = Some n -> derived_of (n_parsed n) <> None -> exists h, In (h, c, PLACEHOLDER) (g_edges g).
Definition no_one (_ : nat) : Prop := False.
Definition Bu (g : graph) : Prop := WF g /\ PhOne g /\ DH no_one g.
Definition BOk (f : graph -> M graph) (p : nat) : Prop := forall g, Bu g -> is_elem g p = true -> ok (f g) /\ forall ws g', f g = (ws, Ok g') -> Bu g' /\ keeps g g'.
Lemma elem_slot g i : is_elem g i = true -> get_slot g i <> None.
Proof. intros H. apply is_elem_node in H as (n & H). apply get_node_slot in H. congruence. Qed.
Lemma out_cons g a b t f r ph h : out_edges (mk_graph f r ((a, b, t) :: g_edges g) ph) h = if Nat.eqb a h then (a, b, t) :: out_edges g h else out_edges g h.
Proof. reflexivity. Qed.
Lemma in_cons g a b t f r ph h : in_edges (mk_graph f r ((a, b, t) :: g_edges g) ph) h = if Nat.eqb b h then (a, b, t) :: in_edges g h else in_edges g h.
Proof. reflexivity. Qed.
Lemma edges_none (P : edge -> bool) (es : list edge) : (forall e, In e es -> P e = false) -> filter P es = [].
Proof. induction es as [|e es IH]; intros H; [reflexivity|]. cbn. rewrite (H e (or_introl eq_refl)). apply IH. intros x Hx. apply H. now right. Qed.
Lemma bu_child g p n t ws r : Bu g -> is_elem g p = true -> add_element_child g p n t = (ws, Ok r) -> WF (fst r) /\ PhOne (fst r) /\ DH (eq (snd r)) (fst r) /\ keeps g (fst r) /\ get_node (fst r) (snd r) = Some n.
Proof.
  intros (W & P & D) Hp H. destruct (add_child_spec g p n t ws r W (elem_slot _ _ Hp) H) as (W' & K & Hf & Hs & Ho & Ee & _). split; [exact W'|]. split; [|split; [|split; [exact K|now apply get_node_slot]]].
  - intros h path Hh. assert (Hne : h <> snd r) by (intros ->; congruence). rewrite (Ho h Hne) in Hh. destruct (P h path Hh) as ((c & Hc & Hst) & Hi).
    assert (Hhp : h <> p) by (intros ->; apply is_elem_node in Hp as (m & Hp); apply get_node_slot in Hp; congruence). split.
    + exists c. split; [eapply keeps_elem; eassumption|]. unfold out_edges. rewrite Ee. cbn [filter e_src fst]. rewrite (proj2 (Nat.eqb_neq p h)) by congruence. exact Hst.
    + unfold in_edges. rewrite Ee. cbn [filter e_dst fst snd]. rewrite (proj2 (Nat.eqb_neq (snd r) h)) by congruence. exact Hi.
  - intros c m Hc Hm Hd. assert (Hm' : get_node g c = Some m) by (rewrite <- Hm; symmetry; apply get_node_same, Ho; congruence). destruct (D c m (fun K => K) Hm' Hd) as (h & Hh). exists h. rewrite Ee. now right.
Qed.
Lemma bu_ph g path c X : WF g -> PhOne g -> DH X g -> is_elem g c = true -> ok (add_placeholder g path c) /\ forall ws g', add_placeholder g path c = (ws, Ok g') -> WF g' /\ PhOne g' /\ DH (fun x => X x /\ x <> c) g' /\ keeps g g'.
Proof.
  intros W P D Hc. unfold add_placeholder. destruct (add_node g (NPh path)) as [g1 h] eqn:Ha. destruct (add_node_spec _ _ _ _ W Ha) as (He & Hph & Hi & Hi' & Ho & _). assert (K1 := add_node_keeps _ _ _ _ W Ha).
  assert (Wp := WF_add_ph _ _ _ _ W Ha). assert (Hne : c <> h) by (intros ->; now apply elem_slot in Hc).
  assert (HR : ~ Reach g1 c h). { intros K. apply (Reach_edges _ _ He) in K. apply clos_rt_rtn1 in K. inversion K as [|y z (u & Hy) _]; subst; [congruence|]. destruct (wf_edge _ W _ _ _ Hy). congruence. }
  rewrite add_edge_ok by exact HR. split; [apply ok_bind; [eexists; eexists; reflexivity|]; intros; apply ok_ret|]. intros ws g' H. cbn in H. injection H as _ <-.
  set (g2 := mk_graph _ _ _ _). assert (W2 : WF g2).
  { assert (Y := WF_add_edge _ h c PLACEHOLDER Wp). cbn [g_slots g_free g_edges g_phs] in Y. apply Y.
    - unfold get_slot in *. cbn [g_slots]. congruence.
    - change (get_slot g1 c <> None). apply (keeps_exists _ _ _ K1). now apply elem_slot.
    - intros K. apply HR. eapply Reach_edges; [|exact K]. reflexivity. }
  assert (E2 : g_edges g2 = (h, c, PLACEHOLDER) :: g_edges g) by (unfold g2; cbn [g_edges]; now rewrite He).
  assert (Hel : forall x, is_elem g x = true -> is_elem g2 x = true) by (intros x Hx; apply is_elem_node in Hx as (m & Hm); apply is_elem_node; exists m; apply get_node_slot in Hm; apply get_node_slot; apply (K1 _ _ Hm)).
  split; [exact W2|]. split; [|split; [|intros i s Hs; apply (K1 _ _ Hs)]].
  - intros h' path' Hh. unfold PhOut, out_edges, in_edges. rewrite E2. cbn [filter e_src e_dst fst snd]. destruct (Nat.eq_dec h' h) as [->|Hn'].
    + rewrite Nat.eqb_refl, (proj2 (Nat.eqb_neq c h)) by congruence. split; [exists c; split; [now apply Hel|]; f_equal|]; apply edges_none; intros [[a b] t] Hin; cbn; apply Nat.eqb_neq; intros ->; destruct (wf_edge _ W _ _ _ Hin); congruence.
    + change (get_slot g1 h' = Some (NPh path')) in Hh. rewrite (Ho h' Hn') in Hh. destruct (P h' path' Hh) as ((c' & Hc' & Hst) & Hin). rewrite (proj2 (Nat.eqb_neq h h')) by congruence.
      assert (c <> h') by (intros ->; apply is_elem_node in Hc as (m & Hm); apply get_node_slot in Hm; congruence). rewrite (proj2 (Nat.eqb_neq c h')) by congruence. split; [|exact Hin]. exists c'. split; [now apply Hel|exact Hst].
  - intros x m Hx Hm Hd. destruct (Nat.eq_dec x c) as [->|Hxc]; [exists h; rewrite E2; now left|].
    assert (Hxh : x <> h) by (intros ->; apply get_node_slot in Hm; change (get_slot g1 h = Some (NElem m)) in Hm; congruence).
    assert (Hm' : get_node g x = Some m) by (rewrite <- Hm; symmetry; apply get_node_same; change (get_slot g1 x = get_slot g x); now apply Ho).
    destruct (D x m (fun K => Hx (conj K Hxc)) Hm' Hd) as (h' & Hh'). exists h'. rewrite E2. now right.
Qed.
Lemma bok_list {A} (F : graph -> A -> M graph) p : forall l, (forall x, In x l -> BOk (fun g => F g x) p) -> BOk (fun g => foldM F g l) p.
Proof.
  induction l as [|x l IH]; intros H g N U; cbn.
  - split; [apply ok_ret|]. intros ws g' E. apply ret_ok in E as [<- _]. split; [exact N|apply keeps_refl].
  - destruct (H x (or_introl eq_refl) g N U) as [H1 H2]. split.
    + apply ok_bind; [exact H1|]. intros ws a Ha. destruct (H2 _ _ Ha) as [N' K]. apply (IH (fun y Hy => H y (or_intror Hy))); [exact N'|]. now apply (keeps_elem g).
    + intros ws g' E. apply bind_ok in E as (w1 & g1 & w2 & E1 & E & _). destruct (H2 _ _ E1) as [N' K].
      destruct (IH (fun y Hy => H y (or_intror Hy)) g1 N') as [_ H3]; [now apply (keeps_elem g)|]. destruct (H3 _ _ E) as [N2 K2]. split; [exact N2|eapply keeps_trans; eassumption].
Qed.
Lemma bok_element p t name lv e g : Bu g -> is_elem g p = true -> ok (build_element g p t name lv e (derived_of e)) /\
  forall ws r, build_element g p t name lv e (derived_of e) = (ws, Ok r) -> Bu (fst r) /\ keeps g (fst r) /\ is_elem (fst r) (snd r) = true.
Proof.
  intros B Hp. unfold build_element. set (n := mk_node name lv false e None false). assert (Hok : ok (add_element_child g p n t)) by (apply add_child_ok; [apply B|now apply elem_slot]). split.
  - apply ok_bind; [exact Hok|]. intros ws r E. destruct (bu_child _ _ _ _ _ _ B Hp E) as (W1 & P1 & D1 & _ & H1). assert (U1 : is_elem (fst r) (snd r) = true) by (apply is_elem_node; eauto).
    destruct (derived_of e) as [path|]; [|apply ok_ret]. apply ok_bind; [apply (bu_ph _ path _ _ W1 P1 D1 U1)|]. intros. apply ok_ret.
  - intros ws r H. apply bind_ok in H as (w1 & gi & w2 & E & H & _). destruct (bu_child _ _ _ _ _ _ B Hp E) as (W1 & P1 & D1 & K1 & H1). assert (U1 : is_elem (fst gi) (snd gi) = true) by (apply is_elem_node; eauto).
    destruct (derived_of e) as [path|] eqn:Ed.
    + apply bind_ok in H as (w3 & g2 & w4 & E2 & H & _). apply ret_ok in H as [<- _]. cbn [fst snd]. destruct (proj2 (bu_ph _ path _ _ W1 P1 D1 U1) _ _ E2) as (W2 & P2 & D2 & K2).
      split; [split; [exact W2|]; split; [exact P2|]|split; [eapply keeps_trans; eassumption|eapply keeps_elem; eassumption]]. intros c m _ Hm Hd. apply (D2 c m); auto. intros [<- K]. now apply K.
    + apply ret_ok in H as [<- _]. split; [|auto]. split; [exact W1|]. split; [exact P1|]. intros c m _ Hm Hd. apply (D1 c m); auto. intros <-. rewrite H1 in Hm. injection Hm as <-. now apply Hd.
Qed.
Lemma bok_node {A} (F : nat -> graph -> A -> M graph) p t name lv e l : (forall c x, In x l -> BOk (fun g => F c g x) c) -> BOk (fun g => gi <- build_element g p t name lv e (derived_of e) ;; foldM (F (snd gi)) (fst gi) l) p.
Proof.
  intros H g N U. destruct (bok_element p t name lv e g N U) as [E1 E2]. split.
  - apply ok_bind; [exact E1|]. intros ws gi E. destruct (E2 _ _ E) as (N1 & K1 & U1). apply (bok_list (F (snd gi)) (snd gi) l (fun x Hx => H _ x Hx) _ N1 U1).
  - intros ws g' E. apply bind_ok in E as (w1 & gi & w2 & E0 & E & _). destruct (E2 _ _ E0) as (N1 & K1 & U1).
    destruct (bok_list (F (snd gi)) (snd gi) l (fun x Hx => H _ x Hx) _ N1 U1) as [_ H2]. destruct (H2 _ _ E) as [N2 K2]. split; [exact N2|eapply keeps_trans; eassumption].
Qed.
Lemma bok_evc p e : BOk (fun g => build_evc p g e) p.
Proof.
  intros g N U. unfold build_evc. destruct (bok_element p CHILD_UNRESOLVED (sevc_name e) LEnum (PaEvc e) g N U) as [E1 E2]. split.
  - apply ok_bind; [exact E1|]. intros. apply ok_ret.
  - intros ws g' E. apply bind_ok in E as (w1 & gi & w2 & E0 & E & _). apply ret_ok in E as [<- _]. destruct (E2 _ _ E0) as (N1 & K1 & _). auto.
Qed.
Lemma bok_field p f : BOk (fun g => build_field p g f) p.
Proof. apply (bok_node build_evc p CHILD_UNRESOLVED (Some (sf_name f)) LField (PaFld f)). intros k' e _. apply bok_evc. Qed.
Lemma bok_rc x : forall p, BOk (fun g => build_rc p g x) p.
Proof.
  induction x as [r|c l IH] using svd_rc_ind'; intros p.
  - apply (bok_node build_field p CHILD_UNRESOLVED (Some (sr_name r)) LRegister (PaRc (SReg r))). intros. apply bok_field.
  - rewrite Forall_forall in IH. apply (bok_node build_rc p CHILD_UNRESOLVED (Some (sc_name c)) LCluster (PaRc (SClu c l))). intros k x Hx. now apply IH.
Qed.
Lemma construct_ok ps : ok (construct_graph ps) /\ forall ws g, construct_graph ps = (ws, Ok g) -> Bu g.
Proof.
  rewrite construct_eq. assert (B : BOk (fun g => foldM build_per g ps) 0%nat).
  { apply bok_list. intros p _. apply (bok_node build_rc 0%nat CHILD_RESOLVED (Some (sp_name p)) LPeripheral (PaPer p)). intros c x _. apply bok_rc. }
  destruct (B start_graph) as [B1 B2]; [|reflexivity|].
  - split; [apply WF_start|]. split; [intros h path Hh; unfold start_graph, get_slot in Hh; cbn in Hh; destruct h as [|[|h]]; discriminate|].
    intros c n _ Hn Hd. unfold start_graph, get_node, get_slot in Hn. cbn in Hn. destruct c as [|[|c]]; try discriminate. injection Hn as <-. now destruct Hd.
  - split; [exact B1|]. intros ws g E. exact (proj1 (B2 _ _ E)).
Qed.
(** linking the placeholders *)
Lemma preds_In g i p : In p (predecessors g i) <-> Step g p i.
Proof.
  unfold predecessors. rewrite dedup_In, in_map_iff. split.
  - intros [(e & <- & He) _]. apply in_edges_In in He as [He <-]. exists (e_typ e). now rewrite <- edge_eta.
  - intros (t & H). split; [|intros []]. exists (p, i, t). split; [reflexivity|]. now apply in_edges_In.
Qed.
Lemma nodup_one {A} (l : list A) x : NoDup l -> (forall y, In y l <-> y = x) -> l = [x].
Proof.
  intros Hnd H. destruct l as [|a l]; [destruct (proj2 (H x) eq_refl)|]. assert (a = x) by (apply H; now left). subst a. destruct l as [|b l]; [reflexivity|]. exfalso. inversion Hnd as [|? ? Hn _]; subst. apply Hn. left. apply H. right. now left.
Qed.
Lemma out_one g h c : PhOut g h c -> Step g h c /\ forall x, Step g h x -> x = c.
Proof.
  intros [_ E]. assert (K : forall x t, In (h, x, t) (g_edges g) <-> (h, x, t) = (h, c, PLACEHOLDER)).
  { intros x t. assert (X : In (h, x, t) (out_edges g h) <-> In (h, x, t) (g_edges g)) by (rewrite out_edges_In; cbn; tauto). rewrite <- X, E. cbn. split; [intros [K|[]]; congruence|intros K; left; congruence]. }
  split; [exists PLACEHOLDER; now apply K|]. intros x (t & Hx). apply K in Hx. congruence.
Qed.
(** [rest]: the placeholders that are still to be linked *)
Record Ln (rest : list nat) (g : graph) : Prop := { ln_wf : WF g; ln_one : forall h path, get_slot g h = Some (NPh path) -> (exists c, PhOut g h c) /\ (if in_dec Nat.eq_dec h rest then in_edges g h = [] else exists p, is_elem g p = true /\ in_edges g h = [(p, h, PLACEHOLDER)]);
  ln_par : forall c, is_elem g c = true -> c <> 0%nat -> exists p, is_elem g p = true /\ Step g p c /\ forall q, is_elem g q = true -> Step g q c -> q = p;
  ln_root : forall a, ~ Step g a 0%nat; ln_zero : is_elem g 0 = true; ln_der : DH no_one g }.
Lemma link_ok g h rest path : Ln (h :: rest) g -> ~ In h rest -> get_slot g h = Some (NPh path) -> ok (link_placeholder g h) /\ forall ws g', link_placeholder g h = (ws, Ok g') -> Ln rest g' /\ g_slots g' = g_slots g.
Proof.
  intros L Hnr Hh. assert (W := ln_wf _ _ L). destruct (ln_one _ _ L h path Hh) as ((c & HPc) & Hin0). destruct (in_dec Nat.eq_dec h (h :: rest)) as [_|X] in Hin0; [|destruct X; now left].
  destruct (out_one _ _ _ HPc) as [Hst Hu]. assert (Hc := proj1 HPc). assert (Hc0 : c <> 0%nat) by (intros ->; exact (ln_root _ _ L _ Hst)). destruct (ln_par _ _ L c Hc Hc0) as (p & Hp & Hpc & Hup).
  assert (Hhe : is_elem g h = false) by (unfold is_elem, get_node; rewrite Hh; reflexivity).
  assert (E1 : successors g h = [c]). { apply nodup_one; [unfold successors; apply dedup_NoDup|]. intros y. rewrite successors_In. split; [apply Hu|now intros ->]. }
  assert (E2 : filter (is_elem g) (predecessors g c) = [p]). { apply nodup_one; [apply NoDup_filter; unfold predecessors; apply dedup_NoDup|]. intros y. rewrite filter_In, preds_In. split; [intros [K1 K2]; now apply Hup|intros ->; auto]. }
  assert (EQ : link_placeholder g h = add_edge_m g p h PLACEHOLDER). { unfold link_placeholder, get_placeholder_co_parent. rewrite E1, E2. rewrite bind_ret_l. reflexivity. }
  rewrite EQ. assert (HR : ~ Reach g h p).
  { intros K. apply clos_rt_rt1n in K. inversion K as [|y z Hy Ky]; subst; [congruence|]. apply Hu in Hy. subst y. apply (wf_acyclic _ W _ _ Hpc). now apply clos_rt1n_rt. }
  rewrite add_edge_ok by exact HR. split; [eexists; eexists; reflexivity|]. intros ws g' E. injection E as _ <-. set (g' := mk_graph _ _ _ _).
  assert (HS : forall a b, Step g' a b <-> Step g a b \/ a = p /\ b = h).
  { intros a b. unfold Step, g'. cbn [g_edges]. split; [intros (t & [K|K]); [injection K as <- <- _; now right|left; eauto]|intros [(t & K)|[-> ->]]; [exists t; now right|exists PLACEHOLDER; now left]]. }
  assert (Hpn : forall x q, get_slot g x = Some (NPh q) -> p <> x) by (intros x q Hx ->; apply is_elem_node in Hp as (m & Hm); apply get_node_slot in Hm; congruence).
  split; [|reflexivity]. split.
  - apply WF_add_edge; auto; [now apply elem_slot|congruence].
  - intros h' path' Hh'. change (get_slot g h' = Some (NPh path')) in Hh'. destruct (ln_one _ _ L h' path' Hh') as ((c' & X1 & X2) & X3). split.
    + exists c'. split; [exact X1|]. unfold g'. rewrite out_cons, (proj2 (Nat.eqb_neq p h')) by (eapply Hpn; eassumption). exact X2.
    + unfold g'. rewrite in_cons. destruct (Nat.eqb_spec h h') as [<-|Hne].
      * destruct (in_dec Nat.eq_dec h rest) as [X|_]; [contradiction|]. exists p. split; [exact Hp|now rewrite Hin0].
      * destruct (in_dec Nat.eq_dec h' rest) as [Y|Y], (in_dec Nat.eq_dec h' (h :: rest)) as [Z|Z]; auto; [destruct Z; now right|]. destruct Z as [Z|Z]; [congruence|contradiction].
  - intros c' X1 X2. destruct (ln_par _ _ L c' X1 X2) as (q & Y1 & Y2 & Y3). exists q. split; [exact Y1|]. split; [apply HS; now left|]. intros r Hr Hs. apply HS in Hs as [Hs|[_ ->]]; [now apply Y3|]. change (is_elem g h = true) in X1. congruence.
  - intros a K. apply HS in K as [K|[_ K]]; [exact (ln_root _ _ L a K)|]. subst h. assert (X := ln_zero _ _ L). congruence.
  - exact (ln_zero _ _ L).
  - intros x m Hx Hm Hd. destruct (ln_der _ _ L x m Hx Hm Hd) as (h' & Hh'). exists h'. now right.
Qed.
Lemma links_ok rest : forall g, Ln rest g -> NoDup rest -> (forall h, In h rest -> exists path, get_slot g h = Some (NPh path)) -> ok (foldM link_placeholder g rest) /\ forall ws g', foldM link_placeholder g rest = (ws, Ok g') -> Ln [] g' /\ g_slots g' = g_slots g.
Proof.
  induction rest as [|h rest IH]; intros g L Hnd Hs; cbn [foldM]; [split; [apply ok_ret|]; intros ws g' H; apply ret_ok in H as [<- _]; auto|]. inversion Hnd as [|? ? Hn Hnd']; subst.
  destruct (Hs h (or_introl eq_refl)) as (path & Hh). destruct (link_ok g h rest path L Hn Hh) as [L1 L2].
  assert (Hk : forall g1, g_slots g1 = g_slots g -> forall x, In x rest -> exists path, get_slot g1 x = Some (NPh path)) by (intros g1 Es x Hx; destruct (Hs x (or_intror Hx)) as (q & Hq); exists q; unfold get_slot in *; now rewrite Es). split.
  - apply ok_bind; [exact L1|]. intros ws g1 E. destruct (L2 _ _ E) as [L3 L4]. apply (IH g1 L3 Hnd'). now apply Hk.
  - intros ws g' H. apply bind_ok in H as (w1 & g1 & w2 & E & H & _). destruct (L2 _ _ E) as [L3 L4]. destruct (IH g1 L3 Hnd') as [_ R]; [now apply Hk|]. destruct (R _ _ H) as [R1 R2]. split; [exact R1|congruence].
Qed.
Theorem initialization_ok ps : ok (initialization ps) /\ forall ws g, initialization ps = (ws, Ok g) -> Ln [] g.
Proof.
  destruct (construct_ok ps) as [C1 C2].
  assert (HL : forall ws g, construct_graph ps = (ws, Ok g) -> WF g /\ Ln (g_phs g) g).
  { intros ws g Eg. destruct (C2 _ _ Eg) as (W & P & D). split; [exact W|]. destruct (st_construct (loose ps) ws g Eg) as (KS & (_ & V & E & ND) & _). assert (T := tr_construct ps ws g Eg).
    assert (HK : forall q c, is_elem g q = true -> is_elem g c = true -> Step g q c -> Kid g q c).
    { intros q c Hq Hc (t & Ht). unfold Kid. apply ckids_In. destruct t; [eauto|eauto| |destruct (ND _ _ Ht)]. exfalso. destruct (w_ph _ E _ _ Ht) as [(path & n & Hs & _)|(_ & path & c' & Hs & _)]; [apply is_elem_node in Hq as (m & Hm)|apply is_elem_node in Hc as (m & Hm)]; apply get_node_slot in Hm; congruence. }
    split; [exact W| | | | |exact D].
    - intros h path Hh. destruct (P h path Hh) as [X1 X2]. split; [exact X1|]. destruct (in_dec Nat.eq_dec h (g_phs g)) as [_|X]; [exact X2|]. destruct X. apply (wf_phs _ W). eauto.
    - intros c Hc Hc0. assert (R := tr_root _ T c Hc). apply clos_rt_rtn1 in R. inversion R as [|y z Hy _]; subst; [congruence|]. assert (Hel : is_elem g y = true) by (unfold Kid in Hy; apply ckids_In in Hy as (t & Hy & Ht); apply (w_child _ E _ _ _ Hy Ht)).
      exists y. split; [exact Hel|]. split; [unfold Kid in Hy; apply ckids_In in Hy as (t & Hy & _); exists t; exact Hy|]. intros q Hq Hs. apply (tr_one _ T c); [apply HK; auto|exact Hy].
    - intros a (t & Ht). destruct (is_child t) eqn:Et.
      + assert (Hk : Kid g a 0%nat) by (unfold Kid; apply ckids_In; eauto). assert (Ha : is_elem g a = true) by (apply (w_child _ E _ _ _ Ht Et)). apply is_elem_node in Ha as (n & Hn). destruct (child_level (loose ps) _ g KS a n 0%nat V Hn Hk) as [K _]. now apply K.
      + destruct t; try discriminate; [|exact (ND _ _ Ht)]. destruct (w_ph _ E _ _ Ht) as [(path & n & Hs & Hn & Hd & _)|(_ & path & c' & Hs & _)]; [rewrite (v_root _ _ _ _ V) in Hn; injection Hn as <-; discriminate|].
        assert (X := v_root _ _ _ _ V). apply get_node_slot in X. congruence.
    - apply is_elem_node. exists root_node. apply (v_root _ _ _ _ V). }
  unfold initialization. split.
  - apply ok_bind; [exact C1|]. intros ws g Eg. destruct (HL _ _ Eg) as [W L]. apply (links_ok _ g L (wf_phs_nd _ W)). intros h. apply (wf_phs _ W).
  - intros ws g' H. apply bind_ok in H as (w1 & g & w2 & Eg & H & _). destruct (HL _ _ Eg) as [W L]. destruct (links_ok _ g L (wf_phs_nd _ W)) as [_ R]; [intros h; apply (wf_phs _ W)|]. exact (proj1 (R _ _ H)).
Qed.

(** ** Copying the children of the base *)
Section Replicate.
  Context (g : graph) (src target : nat) (W : WF g) (Htar : get_slot g target <> None).
  Context (g1 : graph) (m : list (nat * nat)) (K1 : keeps g g1) (E1 : g_edges g1 = g_edges g) (Ff : NoDup (map fst m)) (Fi : NoDup (map snd m))
    (Fr : forall i j, In (i, j) m -> get_slot g j = None /\ get_slot g1 j = get_slot g i).
  Definition Tc (a b : nat) : Prop := Step g a b \/ (exists i c, In (i, a) m /\ In (c, b) m /\ Step g i c) \/ (get_slot g a <> None /\ exists i, In (i, b) m).
  Lemma inj_copy i i' j : In (i, j) m -> In (i', j) m -> i = i'.
  Proof.
    clear -Fi. induction m as [|[x y] l IH]; intros H1 H2; [destruct H1|]. cbn in Fi. inversion Fi as [|? ? Hn Hnd]; subst. destruct H1 as [H1|H1], H2 as [H2|H2].
    - congruence.
    - injection H1 as -> ->. destruct Hn. apply in_map_iff. exists (i', j). auto.
    - injection H2 as -> ->. destruct Hn. apply in_map_iff. exists (i, j). auto.
    - now apply IH.
  Qed.
  Lemma copies_stay a b : clos_refl_trans nat Tc a b -> forall i, In (i, a) m -> exists c, In (c, b) m /\ Reach g i c.
  Proof.
    intros H. apply clos_rt_rt1n in H. induction H as [a|a x b Hx _ IH]; intros i Hi; [exists i; split; [exact Hi|apply rt_refl]|]. assert (Hf := proj1 (Fr _ _ Hi)).
    destruct Hx as [(t & Hx)|[(i' & c & X1 & X2 & X3)|[Hx _]]]; [destruct (wf_edge _ W _ _ _ Hx); congruence| |congruence].
    assert (i' = i) by (eapply inj_copy; eassumption). subst i'. destruct (IH c X2) as (c' & Y1 & Y2). exists c'. split; [exact Y1|]. eapply rt_trans; [apply rt_step; exact X3|exact Y2].
  Qed.
  Lemma originals a b : clos_refl_trans nat Tc a b -> get_slot g b <> None -> get_slot g a <> None -> Reach g a b.
  Proof.
    intros H Hb. apply clos_rt_rt1n in H. induction H as [a|a x b Hx R IH]; intros Ha; [apply rt_refl|].
    assert (NC : forall i, ~ In (i, x) m). { intros i Hi. apply clos_rt1n_rt in R. destruct (copies_stay _ _ R i Hi) as (c & Hc & _). destruct (Fr _ _ Hc). congruence. }
    destruct Hx as [Hx|[(i' & c & X1 & X2 & X3)|[_ (i & Hi)]]]; [|destruct (NC _ X2)|destruct (NC _ Hi)]. apply rt_trans with x; [now apply rt_step|]. apply IH; [exact Hb|]. destruct Hx as (t & Hx). apply (wf_edge _ W _ _ _ Hx).
  Qed.
  Lemma tc_acyclic : Acyclic Tc.
  Proof.
    intros a b H R. destruct H as [H|[(i & c & X1 & X2 & X3)|[Ha (i & Hi)]]].
    - destruct H as (t & H). destruct (wf_edge _ W _ _ _ H) as [Ha Hb]. apply (wf_acyclic _ W a b); [exists t; exact H|]. now apply originals.
    - destruct (copies_stay _ _ R c X2) as (c' & Hc' & Y). assert (c' = i) by (eapply inj_copy; eassumption). subst c'. exact (wf_acyclic _ W _ _ X3 Y).
    - destruct (copies_stay _ _ R i Hi) as (c & Hc & _). destruct (Fr _ _ Hc). congruence.
  Qed.
  Lemma tc_step gk i c j : Within Tc gk -> Step gk i c -> In (c, j) m -> get_slot g i <> None -> get_slot g c <> None -> Step g i c.
  Proof.
    intros H K _ Hi Hc. destruct (H _ _ K) as [X|[(i' & c' & X1 & X2 & X3)|[_ (i' & X)]]]; [exact X| |]; exfalso; [destruct (Fr _ _ X1)|destruct (Fr _ _ X)]; congruence.
  Qed.
  Context (Hm : forall i j, In (i, j) m -> get_slot g i <> None).
  Lemma copy_edges_ok gk i j : Within Tc gk -> In (i, j) m -> ok (copy_edges_of m gk (i, j)) /\ forall ws g', copy_edges_of m gk (i, j) = (ws, Ok g') -> Within Tc g'.
  Proof.
    intros Hw Hin. cbn [copy_edges_of]. set (f1 := fun (g : graph) (e : edge) => match assoc m (e_dst e) with Some c => add_edge_m g j c (e_typ e) | None => ret g end).
    set (f2 := fun (g : graph) (e : edge) => if etype_eqb (e_typ e) DERIVE then add_edge_m g (e_src e) j DERIVE else ret g).
    assert (A1 : forall gk', Within Tc gk' -> forall g e, In e (out_edges gk' i) -> Within Tc g -> ok (f1 g e) /\ forall ws g', f1 g e = (ws, Ok g') -> Within Tc g').
    { intros gk' Hk' g' e He Hg'. unfold f1. destruct (assoc m (e_dst e)) as [c|] eqn:Ea; [|split; [apply ok_ret|]; intros ws g2 E; apply ret_ok in E as [<- _]; exact Hg'].
      apply assoc_In in Ea. apply out_edges_In in He as [He Es]. assert (St : Step gk' i (e_dst e)) by (exists (e_typ e); rewrite <- Es, <- edge_eta; exact He).
      assert (Sg := tc_step gk' i _ _ Hk' St Ea (Hm _ _ Hin) (Hm _ _ Ea)). destruct (within_ok Tc g' j c (e_typ e) Hg' tc_acyclic) as [O1 O2]; [right; left; exists i, (e_dst e); auto|]. split; [exact O1|]. intros ws g2 E. now apply (O2 ws). }
    assert (A2 : forall gk', Within Tc gk' -> forall g e, In e (in_edges gk' i) -> Within Tc g -> ok (f2 g e) /\ forall ws g', f2 g e = (ws, Ok g') -> Within Tc g').
    { intros gk' Hk' g' e He Hg'. unfold f2. destruct (etype_eqb (e_typ e) DERIVE); [|split; [apply ok_ret|]; intros ws g2 E; apply ret_ok in E as [<- _]; exact Hg'].
      apply in_edges_In in He as [He Es]. assert (St : Step gk' (e_src e) i) by (exists (e_typ e); rewrite <- Es, <- edge_eta; exact He).
      assert (Ho : get_slot g (e_src e) <> None). { destruct (Hk' _ _ St) as [(t & X)|[(i' & c' & X1 & X2 & X3)|[X _]]]; [apply (wf_edge _ W _ _ _ X)| |exact X]. exfalso. destruct (Fr _ _ X2) as [X _]. exact (Hm _ _ Hin X). }
      destruct (within_ok Tc g' (e_src e) j DERIVE Hg' tc_acyclic) as [O1 O2]; [right; right; split; [exact Ho|eauto]|]. split; [exact O1|]. intros ws g2 E. now apply (O2 ws). }
    split.
    - apply ok_bind.
      + apply (ok_foldM f1 (Within Tc)); [intros; apply (A1 gk Hw); assumption|intros s x ws s' X1 X2; apply (A1 gk Hw); assumption|exact Hw].
      + intros ws gk1 E. assert (H1 : Within Tc gk1) by (eapply (inv_foldM f1 (Within Tc)); [|exact Hw|exact E]; intros s x ws' s' X1 X2; apply (A1 gk Hw); assumption).
        apply (ok_foldM f2 (Within Tc)); [intros; apply (A2 gk1 H1); assumption|intros s x ws' s' X1 X2; apply (A2 gk1 H1); assumption|exact H1].
    - intros ws g' E. apply bind_ok in E as (w1 & gk1 & w2 & E & E2 & _). assert (H1 : Within Tc gk1) by (eapply (inv_foldM f1 (Within Tc)); [|exact Hw|exact E]; intros s x ws' s' X1 X2; apply (A1 gk Hw); assumption).
      eapply (inv_foldM f2 (Within Tc)); [|exact H1|exact E2]. intros s x ws' s' X1 X2. apply (A2 gk1 H1); assumption.
  Qed.
  Lemma attach_ok done gk e : Within Tc gk -> ok (attach m done target gk e) /\ forall ws g', attach m done target gk e = (ws, Ok g') -> Within Tc g'.
  Proof.
    intros Hw. unfold attach. destruct (assoc m (e_dst e)) as [c|] eqn:Ea; [|split; [apply ok_ret|]; intros ws g2 E; apply ret_ok in E as [<- _]; exact Hw]. apply assoc_In in Ea.
    destruct (within_ok Tc gk target c (if is_elem gk c then (if done then CHILD_RESOLVED else CHILD_UNRESOLVED) else PLACEHOLDER) Hw tc_acyclic) as [O1 O2]; [right; right; split; [exact Htar|eauto]|]. split; [exact O1|]. intros ws g2 E. now apply (O2 ws).
  Qed.
End Replicate.
Theorem replicate_ok g src target : WF g -> get_slot g target <> None -> ok (replicate_descendants g src target).
Proof.
  intros W Ht. unfold replicate_descendants. destruct (copy_nodes g (descendants g src) []) as [g1 m] eqn:Ec. destruct (descendants_spec g src W) as [Dn Dd].
  assert (Hex : forall i, In i (descendants g src) -> get_slot g i <> None).
  { intros i Hi. apply Dd in Hi. apply clos_trans_tn1 in Hi. destruct Hi as [y (t & Hy & _)|y z (t & Hy & _) _]; apply (wf_edge _ W _ _ _ Hy). }
  destruct (copy_nodes_spec _ _ _ _ _ W Dn Hex Ec) as (W1 & K1 & E1 & m2 & E2 & Ef & Es & Fr & _). cbn in E2. subst m2.
  assert (Ff : NoDup (map fst m)) by now rewrite Ef. assert (Hm : forall i j, In (i, j) m -> get_slot g i <> None) by (intros i j Hij; apply Hex; rewrite <- Ef; now apply in_map with (f := fst) in Hij).
  assert (H0 : Within (Tc g m) g1) by (intros a b K; left; now apply (Step_edges g g1 E1)).
  apply ok_bind.
  - apply (ok_foldM (copy_edges_of m) (Within (Tc g m))); [| |exact H0].
    + intros s [i j] Hij Hs. apply (copy_edges_ok g W g1 m Es Fr Hm s i j Hs Hij).
    + intros s [i j] ws s' Hij Hs. apply (copy_edges_ok g W g1 m Es Fr Hm s i j Hs Hij).
  - intros ws g2 E. assert (H2 : Within (Tc g m) g2). { eapply (inv_foldM (copy_edges_of m) (Within (Tc g m))); [|exact H0|exact E]. intros s [i j] ws' s' Hij Hs. apply (copy_edges_ok g W g1 m Es Fr Hm s i j Hs Hij). }
    apply (ok_foldM _ (Within (Tc g m))); [| |exact H2].
    + intros s e _ Hs. apply (attach_ok g target W Ht g1 m Es Fr). exact Hs.
    + intros s e w s' _ Hs. apply (attach_ok g target W Ht g1 m Es Fr). exact Hs.
Qed.
