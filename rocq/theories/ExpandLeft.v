(** * ExpandLeft: how many derivation edges and placeholders lead to a derived peripheral or cluster.
    At most one while it is unfinished, none once it is finished; so no derivation edge to a cluster is left when all elements are finished. *)
From Coq Require Import Relations.
From Verif Require Import Base PyStr Types DimModel EnumModel ElemModel ResolveModel GraphFacts ReplicateFacts ResolveWF ResolveInv TopoFacts SpecDeclared SpecElem SpecSearch SearchFacts SpecExpand DescribeFacts PropsDim ExpandInv ExpandBuild ExpandStep ExpandNode ExpandRounds ExpandShare TermFacts.

Definition nonkid (c : nat) (e : edge) : bool := negb (is_child (e_typ e)) && Nat.eqb (e_dst e) c.
Definition nin (es : list edge) (c : nat) : nat := length (filter (nonkid c) es).
(** derived elements of the kinds [L] *)
Definition derived_in (L : level -> Prop) (e : parsed) : Prop := L (level_of e) /\ derived_of e <> None.
Definition DvL (L : level -> Prop) (g : graph) : Prop := forall c n, get_node g c = Some n -> derived_in L (n_parsed n) -> (nin (g_edges g) c <= if n_done n then 0 else 1)%nat.
(** ... derived peripherals and clusters *)
Definition pc (lv : level) : Prop := lv = LPeripheral \/ lv = LCluster.
Notation dpc := (derived_in pc).
Notation Dv := (DvL pc).
Lemma pc_enum : ~ pc LEnum.
Proof. intros [H|H]; discriminate. Qed.

Lemma nin_app a b c : nin (a ++ b) c = (nin a c + nin b c)%nat.
Proof. unfold nin. now rewrite filter_app, app_length. Qed.
Lemma nin_cons p d t es c : nin ((p, d, t) :: es) c = ((if negb (is_child t) && Nat.eqb d c then 1 else 0) + nin es c)%nat.
Proof. unfold nin. cbn. unfold nonkid. cbn. destruct (negb (is_child t) && Nat.eqb d c); reflexivity. Qed.
Lemma nin_zero es c : (forall a t, In (a, c, t) es -> is_child t = true) -> nin es c = 0%nat.
Proof.
  induction es as [|[[p d] t] es IH]; intros H; [reflexivity|]. rewrite nin_cons, IH by (intros a u K; apply (H a); now right).
  destruct (Nat.eqb_spec d c) as [->|]; [|now rewrite andb_false_r]. rewrite (H p t (or_introl eq_refl)). reflexivity.
Qed.
Lemma nin_In es c a t : nin es c = 0%nat -> In (a, c, t) es -> is_child t = true.
Proof.
  intros H K. destruct (is_child t) eqn:Et; [reflexivity|]. assert (K2 : In (a, c, t) (filter (nonkid c) es)) by (apply filter_In; split; [exact K|]; unfold nonkid; cbn; now rewrite Et, Nat.eqb_refl).
  unfold nin in H. destruct (filter (nonkid c) es); [destruct K2|discriminate].
Qed.
Lemma nin_perm es es' c : Permutation es es' -> nin es c = nin es' c.
Proof. intros H. unfold nin. apply Permutation_length. induction H; cbn; repeat (match goal with |- context [if ?b then _ else _] => destruct b end); auto; try constructor; try (etransitivity; eassumption). Qed.
Lemma nin_filter (k : edge -> bool) es c : (nin (filter k es) c <= nin es c)%nat.
Proof. induction es as [|[[p d] t] es IH]; [reflexivity|]. cbn [filter]. destruct (k (p, d, t)); rewrite !nin_cons; lia. Qed.
Lemma nin_remove p c es x : (nin (remove_first p c es) x <= nin es x)%nat.
Proof. induction es as [|[[a d] t] es IH]; [reflexivity|]. cbn [remove_first e_src e_dst fst snd]. destruct (Nat.eqb a p && Nat.eqb d c); rewrite !nin_cons; lia. Qed.
Lemma nin_remove_self p c es : (exists t, In (p, c, t) es) -> (forall t, In (p, c, t) es -> is_child t = false) -> Datatypes.S (nin (remove_first p c es) c) = nin es c.
Proof.
  induction es as [|[[a d] t] es IH]; intros [u Hu] H; [destruct Hu|]. cbn [remove_first e_src e_dst fst snd]. destruct (Nat.eqb_spec a p) as [->|Ha]; cbn [andb]; [destruct (Nat.eqb_spec d c) as [->|Hd]|].
  - rewrite nin_cons, (H t (or_introl eq_refl)), Nat.eqb_refl. reflexivity.
  - rewrite !nin_cons, <- IH; [lia| |intros v Hv; apply H; now right]. destruct Hu as [Hu|Hu]; [congruence|eauto].
  - rewrite !nin_cons, <- IH; [lia| |intros v Hv; apply H; now right]. destruct Hu as [Hu|Hu]; [congruence|eauto].
Qed.
Lemma nin_update i c es x : (forall t, In (i, c, t) es -> is_child t = true) -> nin (update_first i c CHILD_RESOLVED es) x = nin es x.
Proof.
  induction es as [|[[p d] t] es IH]; intros H; [reflexivity|]. cbn [update_first e_src e_dst fst snd]. destruct (Nat.eqb_spec p i) as [->|Hp]; cbn [andb]; [destruct (Nat.eqb_spec d c) as [->|Hd]|].
  - rewrite !nin_cons, (H t (or_introl eq_refl)). reflexivity.
  - rewrite !nin_cons, IH; [reflexivity|]. intros u Hu. apply H. now right.
  - rewrite !nin_cons, IH; [reflexivity|]. intros u Hu. apply H. now right.
Qed.
Lemma nin_resolved i cs x : forall es, (forall c t, In c cs -> In (i, c, t) es -> is_child t = true) -> nin (set_resolved es i cs) x = nin es x.
Proof.
  induction cs as [|c cs IH]; intros es H; [reflexivity|]. change (set_resolved es i (c :: cs)) with (set_resolved (update_first i c CHILD_RESOLVED es) i cs).
  assert (H1 : forall t, In (i, c, t) es -> is_child t = true) by (intros t; apply H; now left). rewrite IH; [now apply nin_update|].
  intros d t Hd Hin. destruct (is_child t) eqn:Et; [reflexivity|]. destruct (upd_first_facts i c es H1) as (_ & I2 & _). apply I2 in Hin; [|exact Et]. rewrite <- Et. apply (H d); auto. now right.
Qed.

(** ** The freshly built graph *)
Record Bi (g : graph) : Prop := {
  bi_wf : WF g;
  bi_root : get_slot g 0%nat <> None;
  bi_one : forall c n, get_node g c = Some n -> (nin (g_edges g) c <= 1)%nat;
  bi_done : forall c n, get_node g c = Some n -> n_done n = true -> n_parsed n = PaDev;
  bi_top : forall a c t, In (a, c, t) (g_edges g) -> is_child t = true -> (t = CHILD_RESOLVED <-> a = 0%nat) }.
Definition BGrow (f : graph -> M graph) (p : nat) : Prop := forall g ws g', Bi g -> get_slot g p <> None -> f g = (ws, Ok g') -> Bi g' /\ forall x, get_slot g x <> None -> get_slot g' x <> None.
Lemma keeps_slot g g' x : keeps g g' -> get_slot g x <> None -> get_slot g' x <> None.
Proof. intros K H. destruct (get_slot g x) as [s|] eqn:Es; [|congruence]. rewrite (K x s Es). discriminate. Qed.
Lemma bi_element g p t name lv e d ws r : Bi g -> get_slot g p <> None -> is_child t = true -> (t = CHILD_RESOLVED <-> p = 0%nat) -> build_element g p t name lv e d = (ws, Ok r) ->
  Bi (fst r) /\ get_slot (fst r) (snd r) <> None /\ snd r <> 0%nat /\ forall x, get_slot g x <> None -> get_slot (fst r) x <> None.
Proof.
  intros [Wf B0 B1 B2 B3] Hp Ht Hp0 H. unfold build_element in H. apply bind_ok in H as (w1 & [g1 c] & w2 & H1 & H & _).
  apply add_child_spec in H1; [|exact Wf|exact Hp]. cbn [fst snd] in H1. destruct H1 as (Wf1 & Kp & Hc & Hc' & Hs & He & _).
  assert (Hc0 : c <> 0%nat) by (intros ->; contradiction).
  assert (Hfr : nin (g_edges g) c = 0%nat) by (apply nin_zero; intros a u K; destruct (wf_edge _ Wf _ _ _ K); congruence).
  assert (Hx' : forall x n, x <> c -> get_node g1 x = Some n -> get_node g x = Some n) by (intros x n Hx K; rewrite <- K; symmetry; now apply get_node_same, Hs).
  assert (C1 : forall x n, get_node g1 x = Some n -> (nin (g_edges g1) x <= (if Nat.eqb x c then 0 else 1))%nat).
  { intros x n Hx. rewrite He, nin_cons, Ht. cbn [negb andb]. destruct (Nat.eqb_spec x c) as [->|Hxc]; [rewrite Hfr; lia|]. exact (B1 _ _ (Hx' _ _ Hxc Hx)). }
  assert (C2 : forall x n, get_node g1 x = Some n -> n_done n = true -> n_parsed n = PaDev).
  { intros x n Hx Hd. destruct (Nat.eq_dec x c) as [->|Hxc]; [apply get_node_slot in Hx; rewrite Hc' in Hx; injection Hx as <-; discriminate|exact (B2 _ _ (Hx' _ _ Hxc Hx) Hd)]. }
  assert (C3 : forall a x u, In (a, x, u) (g_edges g1) -> is_child u = true -> (u = CHILD_RESOLVED <-> a = 0%nat)).
  { intros a x u K Hu. rewrite He in K. destruct K as [K|K]; [injection K as <- <- <-; exact Hp0|exact (B3 a x u K Hu)]. }
  assert (K1 : forall x, get_slot g x <> None -> get_slot g1 x <> None) by (intros x; now apply keeps_slot).
  destruct d as [path|].
  - apply bind_ok in H as (w3 & g2 & w4 & H2 & H & _). apply ret_ok in H as [<- _]. cbn [fst snd] in *. apply add_ph_spec in H2 as (h & Wf2 & Kp2 & Hh & Hh' & Hs2 & He2 & _); [|exact Wf1|congruence].
    assert (Hx2 : forall x n, get_node g2 x = Some n -> get_node g1 x = Some n).
    { intros x n Hx. destruct (Nat.eq_dec x h) as [->|Hxh]; [apply get_node_slot in Hx; congruence|]. rewrite <- Hx. symmetry. now apply get_node_same, Hs2. }
    split; [|split; [apply (keeps_slot g1); [exact Kp2|congruence]|split; [exact Hc0|intros x Hx; apply (keeps_slot g1); auto]]]. constructor; [exact Wf2|apply (keeps_slot g1); auto| | |].
    + intros x n Hx. apply Hx2 in Hx. specialize (C1 _ _ Hx). rewrite He2, nin_cons. cbn [is_child negb andb]. rewrite (Nat.eqb_sym c x). destruct (Nat.eqb x c); lia.
    + intros x n Hx. apply Hx2 in Hx. exact (C2 _ _ Hx).
    + intros a x u K Hu. rewrite He2 in K. destruct K as [K|K]; [injection K as _ _ <-; discriminate|exact (C3 _ _ _ K Hu)].
  - apply ret_ok in H as [<- _]. cbn [fst snd] in *. split; [|split; [congruence|split; [exact Hc0|exact K1]]]. constructor; [exact Wf1|auto| |exact C2|exact C3]. intros x n Hx. specialize (C1 _ _ Hx). destruct (Nat.eqb x c); lia.
Qed.
Lemma bi_list {A} (F : graph -> A -> M graph) p : forall l, (forall x, In x l -> BGrow (fun g => F g x) p) -> BGrow (fun g => foldM F g l) p.
Proof.
  induction l as [|x l IH]; intros HB g ws g' T Hp H; cbn in H; [apply ret_ok in H as [<- _]; auto|]. apply bind_ok in H as (w1 & g1 & w2 & H1 & H & _).
  destruct (HB x (or_introl eq_refl) _ _ _ T Hp H1) as [T1 K1]. destruct (IH (fun y Hy => HB y (or_intror Hy)) _ _ _ T1 (K1 _ Hp) H) as [T2 K2]. auto.
Qed.
Lemma bi_node {A} (F : nat -> graph -> A -> M graph) p t name lv e d l : is_child t = true -> (t = CHILD_RESOLVED <-> p = 0%nat) -> (forall c x, c <> 0%nat -> In x l -> BGrow (fun g => F c g x) c) ->
  BGrow (fun g => gi <- build_element g p t name lv e d ;; foldM (F (snd gi)) (fst gi) l) p.
Proof.
  intros Ht Hp0 HB g ws g' T Hp H. apply bind_ok in H as (w1 & r & w2 & H1 & H & _). destruct (bi_element _ _ _ _ _ _ _ _ _ T Hp Ht Hp0 H1) as (T1 & Hc & Hc0 & K1).
  destruct (bi_list (F (snd r)) (snd r) l (fun x => HB (snd r) x Hc0) _ _ _ T1 Hc H) as [T2 K2]. auto.
Qed.
Lemma bi_evc p e : p <> 0%nat -> BGrow (fun g => build_evc p g e) p.
Proof. intros Hp. apply (bi_node (fun _ g (_ : unit) => ret g) p CHILD_UNRESOLVED (sevc_name e) LEnum (PaEvc e) (sevc_derived e) []); [reflexivity|split; [discriminate|contradiction]|intros c x _ []]. Qed.
Lemma bi_field p f : p <> 0%nat -> BGrow (fun g => build_field p g f) p.
Proof. intros Hp. apply (bi_node build_evc p); [reflexivity|split; [discriminate|contradiction]|]. intros. now apply bi_evc. Qed.
Lemma bi_rc x : forall p, p <> 0%nat -> BGrow (fun g => build_rc p g x) p.
Proof.
  induction x as [r|c l IH] using svd_rc_ind'; intros p Hp.
  - apply (bi_node build_field p); [reflexivity|split; [discriminate|contradiction]|]. intros. now apply bi_field.
  - rewrite Forall_forall in IH. apply (bi_node build_rc p); [reflexivity|split; [discriminate|contradiction]|]. intros c0 x Hc Hx. now apply IH.
Qed.
Lemma bi_construct ps ws g : construct_graph ps = (ws, Ok g) -> Bi g.
Proof.
  rewrite construct_eq. intros H. eapply (bi_list build_per 0%nat ps); [| | |exact H].
  - intros p _. apply (bi_node build_rc 0%nat); [reflexivity|split; reflexivity|]. intros. now apply bi_rc.
  - constructor; [exact WF_start|discriminate| | |intros a c t []]; intros c n Hn; (destruct c as [|[|c]]; [injection Hn as <-|discriminate|discriminate]); [cbn; lia|reflexivity].
  - discriminate.
Qed.
Lemma bi_link g h ws g' : Bi g -> (exists path, get_slot g h = Some (NPh path)) -> link_placeholder g h = (ws, Ok g') -> Bi g' /\ g_slots g' = g_slots g.
Proof.
  intros [Wf B0 B1 B2 B3] [path Hh] H. assert (Hhs : get_slot g h <> None) by congruence. assert (Wf' := proj1 (link_grows _ _ _ _ Wf Hhs H)). unfold link_placeholder in H. apply bind_ok in H as (w5 & [p|] & w6 & _ & H1 & _); [|apply ret_ok in H1 as [<- _]; split; [constructor|]; auto].
  apply add_edge_m_eq in H1 as (_ & -> & _). split; [|reflexivity]. constructor; [exact Wf'|exact B0| |exact B2|].
  - intros c n Hc. assert (Hc' : get_node g c = Some n) by exact Hc. cbn [g_edges]. rewrite nin_cons. specialize (B1 _ _ Hc'). destruct (Nat.eqb_spec h c) as [->|]; [apply get_node_slot in Hc'; congruence|]. cbn. lia.
  - intros a c t [K|K] Ht; [injection K as _ _ <-; discriminate|exact (B3 _ _ _ K Ht)].
Qed.
Lemma bi_initialization ps ws g : initialization ps = (ws, Ok g) -> Bi g.
Proof.
  intros H. apply bind_ok in H as (w1 & g0 & w2 & H1 & H & _). apply bi_construct in H1.
  assert (Hl : forall h, In h (g_phs g0) -> exists path, get_slot g0 h = Some (NPh path)) by (intros h; apply (wf_phs _ (bi_wf _ H1))). revert Hl H. generalize (g_phs g0). intros l. revert g0 w2 H1. induction l as [|h l IH]; intros g0 w2 S Hl H; cbn in H; [apply ret_ok in H as [<- _]; exact S|].
  apply bind_ok in H as (w3 & g1 & w4 & H1 & H & _). destruct (bi_link _ _ _ _ S (Hl h (or_introl eq_refl)) H1) as [S1 Es]. eapply IH; [exact S1| |exact H]. intros x Hx. destruct (Hl x (or_intror Hx)) as [q Hq]. exists q. unfold get_slot in *. now rewrite Es.
Qed.
Lemma bi_dv L g : Bi g -> DvL L g.
Proof. intros B c n Hn [_ Hd]. destruct (n_done n) eqn:Ed; [|exact (bi_one _ B _ _ Hn)]. rewrite (bi_done _ B _ _ Hn Ed) in Hd. now destruct Hd. Qed.

(** ** Resolving placeholders *)
Lemma dv_resolve_ph L g h ws g' : EInv g -> DvL L g -> resolve_placeholder g h = (ws, Ok g') -> DvL L g'.
Proof.
  intros E D H. destruct (resolve_ph_inv _ _ _ _ H) as [->|(p & pn & c & n & path & b & Hp & Hpd & Hph & Hhc & Hh & Hc & Hb & Hr & Eg)]; [exact D|].
  assert (Hn : forall i, get_node g' i = get_node g i).
  { intros i. rewrite Eg. unfold get_node. change (get_slot (mk_graph _ _ _ _) i) with (get_slot (remove_placeholder g h) i). rewrite (remove_ph_slot _ _ _ Hh).
    destruct (Nat.eqb_spec h i) as [->|]; [now rewrite Hh|reflexivity]. }
  assert (He : g_edges g' = (b, c, DERIVE) :: filter (fun e => negb (Nat.eqb (e_src e) h) && negb (Nat.eqb (e_dst e) h)) (g_edges g)) by (rewrite Eg; reflexivity).
  intros x nx Hx Hdx. rewrite Hn in Hx. specialize (D x nx Hx Hdx). rewrite He, nin_cons. cbn [is_child negb andb]. destruct (Nat.eqb_spec c x) as [->|Hcx]; [|assert (K := nin_filter (fun e => negb (Nat.eqb (e_src e) h) && negb (Nat.eqb (e_dst e) h)) (g_edges g) x); lia].
  assert (K : (Datatypes.S (nin (filter (fun e => negb (Nat.eqb (e_src e) h) && negb (Nat.eqb (e_dst e) h)) (g_edges g)) x) <= nin (g_edges g) x)%nat); [|lia].
  clear - Hhc. induction (g_edges g) as [|[[a d] t] es IH]; [destruct Hhc|]. cbn [filter e_src e_dst fst snd]. destruct Hhc as [K|K].
  - injection K as -> -> ->. rewrite Nat.eqb_refl. cbn [negb andb]. rewrite nin_cons, Nat.eqb_refl. cbn [is_child negb andb]. apply le_n_S, nin_filter.
  - specialize (IH K). destruct (negb (Nat.eqb a h) && negb (Nat.eqb d h)); rewrite !nin_cons; lia.
Qed.
Lemma dv_resolve_phs L W ps l : forall g KS ws g', Iv ps W g KS -> DvL L g -> foldM resolve_placeholder g l = (ws, Ok g') -> DvL L g'.
Proof.
  induction l as [|h l IH]; intros g KS ws g' I D H; cbn in H; [apply ret_ok in H as [<- _]; exact D|]. apply bind_ok in H as (w1 & g1 & w2 & H1 & H & _).
  eapply IH; [eapply iv_resolve_ph; eassumption|eapply dv_resolve_ph; [apply I|exact D|exact H1]|exact H].
Qed.

(** ** Copying the descendants of the base *)
Section Rep.
  Context (g : graph) (b i : nat) (g1 : graph) (m : list (nat * nat)) (R : Replicated g b i g1 m) (Wf : WF g).
  Definition from (d : nat) (S : list nat) (es : list edge) : nat := length (filter (fun e => nonkid d e && existsb (Nat.eqb (e_src e)) S) es).
  Lemma from_le d S es : (from d S es <= nin es d)%nat.
  Proof. unfold from, nin. induction es as [|e es IH]; [reflexivity|]. cbn. destruct (nonkid d e); cbn; [destruct (existsb _ S); cbn; lia|exact IH]. Qed.
  Lemma from_cons d x S es : ~ In x S -> from d (x :: S) es = (from d [x] es + from d S es)%nat.
  Proof.
    intros Hx. unfold from. induction es as [|e es IH]; [reflexivity|]. cbn in IH |- *. destruct (nonkid d e); cbn in IH |- *; [|exact IH]. destruct (Nat.eqb_spec (e_src e) x) as [->|]; cbn in IH |- *.
    - assert (K : existsb (Nat.eqb x) S = false). { destruct (existsb (Nat.eqb x) S) eqn:K; [|reflexivity]. apply existsb_exists in K as (y & K1 & K2). apply Nat.eqb_eq in K2. subst y. contradiction. }
      rewrite K. cbn. lia.
    - destruct (existsb (Nat.eqb (e_src e)) S); cbn; lia.
  Qed.
  Lemma from_copied d j i0 j0 : In (d, j) m -> (forall a, ~ In (a, d, DERIVE) (g_edges g)) -> In (i0, j0) m -> (nin (copied g m (i0, j0)) j <= from d [i0] (g_edges g))%nat.
  Proof.
    intros Hd Hno Hi. unfold copied. rewrite nin_app.
    assert (K : nin (flat_map (fun e => if etype_eqb (e_typ e) DERIVE then [(e_src e, j0, DERIVE)] else []) (in_edges g i0)) j = 0%nat).
    { apply nin_zero. intros a t K. exfalso. apply in_flat_map in K as ([[x y] u] & K1 & K2). unfold in_edges in K1. apply filter_In in K1 as [K1 K3]. cbn in K2, K3. apply Nat.eqb_eq in K3. subst y.
      destruct u; cbn in K2; try (now destruct K2). destruct K2 as [K2|[]]. injection K2 as <- -> <-. assert (K4 := pre_nd _ _ _ (rp_inj _ _ _ _ _ R) Hd). rewrite (pre_nd _ _ _ (rp_inj _ _ _ _ _ R) Hi) in K4. injection K4 as ->. exact (Hno _ K1). }
    rewrite K, Nat.add_0_r. clear K. unfold out_edges, from. induction (g_edges g) as [|[[x y] t] es IH]; [reflexivity|]. assert (IH' := IH (fun a K => Hno a (or_intror K))). clear IH. cbn [filter e_src e_dst e_typ fst snd].
    unfold nonkid at 1. cbn [e_src e_dst e_typ fst snd existsb]. rewrite orb_false_r.
    destruct (Nat.eqb_spec x i0) as [->|Hx]; [|rewrite andb_false_r; exact IH']. rewrite andb_true_r. cbn [flat_map e_dst e_typ fst snd]. rewrite nin_app.
    destruct (assoc m y) as [c|] eqn:Ea; [|change (nin [] j) with 0%nat; destruct (negb (is_child t) && Nat.eqb y d); cbn [length]; cbn in IH' |- *; lia].
    rewrite nin_cons. change (nin [] j) with 0%nat. destruct (is_child t); cbn [negb andb]; [cbn; exact IH'|]. destruct (Nat.eqb_spec c j) as [->|]; [|destruct (Nat.eqb y d); cbn in IH' |- *; lia].
    apply assoc_In in Ea. assert (K4 := pre_nd _ _ _ (rp_inj _ _ _ _ _ R) Hd). rewrite (pre_nd _ _ _ (rp_inj _ _ _ _ _ R) Ea) in K4. injection K4 as ->. rewrite Nat.eqb_refl. cbn in IH' |- *. lia.
  Qed.
  Lemma from_all d j : In (d, j) m -> (forall a, ~ In (a, d, DERIVE) (g_edges g)) -> forall l, incl l m -> NoDup (map fst l) -> (nin (flat_map (copied g m) l) j <= from d (map fst l) (g_edges g))%nat.
  Proof.
    intros Hd Hno. induction l as [|[i0 j0] l IH]; intros Hl Hnd; [cbn; lia|]. cbn [flat_map map fst]. cbn [map fst] in Hnd. inversion Hnd as [|? ? K1 K2]; subst. rewrite nin_app, (from_cons _ _ _ _ K1).
    assert (L1 := from_copied d j i0 j0 Hd Hno (Hl _ (or_introl eq_refl))). specialize (IH (fun x Hx => Hl x (or_intror Hx)) K2). lia.
  Qed.
  Lemma nin_old x : get_slot g x <> None -> nin (g_edges g1) x = nin (g_edges g) x.
  Proof.
    intros Ho. destruct (rp_perm _ _ _ _ _ R) as (new & He & HP). rewrite He, nin_app, (nin_perm _ _ x HP), nin_app.
    assert (Hold : forall d, ~ In (d, x) m) by (intros d K; destruct (rp_fresh _ _ _ _ _ R _ _ K); congruence).
    rewrite (nin_zero (flat_map (copied g m) m) x), (nin_zero (attached g b i m) x); [reflexivity| |].
    + intros a t K. exfalso. unfold attached in K. apply in_flat_map in K as (e & _ & K). destruct (assoc m (e_dst e)) as [c|] eqn:Ea; [|destruct K]. destruct K as [K|[]]. injection K as _ -> _. exact (Hold _ (assoc_In _ _ _ Ea)).
    + intros a t K. exfalso. apply in_flat_map in K as ([d j] & Hm & K). unfold copied in K. apply in_app_iff in K as [K|K]; apply in_flat_map in K as (e & _ & K).
      * destruct (assoc m (e_dst e)) as [c|] eqn:Ea; [|destruct K]. destruct K as [K|[]]. injection K as _ -> _. exact (Hold _ (assoc_In _ _ _ Ea)).
      * destruct (etype_eqb _ _); [|destruct K]. destruct K as [K|[]]. injection K as _ -> _. exact (Hold _ Hm).
  Qed.
  Lemma dv_rep L : DvL L g -> (forall d j nd, In (d, j) m -> get_node g d = Some nd -> derived_in L (n_parsed nd) -> forall a, ~ In (a, d, DERIVE) (g_edges g)) -> DvL L g1.
  Proof.
    intros D Hno x n Hx Hdx. assert (Hs : get_slot g1 x <> None) by (apply get_node_slot in Hx; congruence).
    destruct (rp_only _ _ _ _ _ R x Hs) as [Ho|Ho].
    - assert (Hn : get_node g x = Some n). { destruct (get_slot g x) as [s|] eqn:Es; [|congruence]. assert (K := rp_keeps _ _ _ _ _ R _ _ Es). unfold get_node in *. rewrite K in Hx. rewrite Es. exact Hx. }
      rewrite nin_old by exact Ho. exact (D x n Hn Hdx).
    - destruct (rp_perm _ _ _ _ _ R) as (new & He & HP). rewrite He, nin_app, (nin_perm _ _ x HP), nin_app.
      apply in_map_iff in Ho as ([d j] & Ej & Ho). cbn in Ej. subst j. destruct (rp_fresh _ _ _ _ _ R _ _ Ho) as [F1 F2].
      assert (Hn : get_node g d = Some n) by (unfold get_node in *; now rewrite <- F2). assert (K := Hno d x n Ho Hn Hdx).
      assert (Lf := from_all d x Ho K m (incl_refl _) (rp_fun _ _ _ _ _ R)). assert (L2 := from_le d (map fst m) (g_edges g)). specialize (D d n Hn Hdx).
      rewrite (nin_zero (g_edges g) x), (nin_zero (attached g b i m) x); [lia| |].
      + intros a t Ka. unfold attached in Ka. apply in_flat_map in Ka as (e & _ & Ka). destruct (assoc m (e_dst e)) as [c|] eqn:Ea; [|destruct Ka]. destruct Ka as [Ka|[]]. injection Ka as _ -> <-.
        apply assoc_In in Ea. assert (K4 := pre_nd _ _ _ (rp_inj _ _ _ _ _ R) Ea). rewrite (pre_nd _ _ _ (rp_inj _ _ _ _ _ R) Ho) in K4. injection K4 as <-. unfold attach_type, is_elem. rewrite Hn. cbn. destruct (match get_node g b with Some _ => _ | None => _ end); reflexivity.
      + intros a t Ka. destruct (wf_edge _ Wf _ _ _ Ka). congruence.
  Qed.
End Rep.

(** ** Processing one element *)
Section Process.
  Context (ps0 : list svd_periph) (NDC : forall a e, MayBeBase ps0 a -> level_of a = LCluster -> Inside a e -> ~ derived_cluster e).
  Context (L : level -> Prop) (HL : ~ L LEnum).
  Local Notation ps := (loose ps0).
  (** the derived elements below the base of [i] wait for their base to be looked up, or are finished *)
  Definition Waiting (g : graph) (i : nat) : Prop :=
    forall b d nd, In (b, i, DERIVE) (g_edges g) -> Desc g b d -> get_node g d = Some nd -> derived_in L (n_parsed nd) -> forall a, ~ In (a, d, DERIVE) (g_edges g).
  Lemma dv_prepared g KS i n base bv g1 : Iv ps nobody g KS -> DvL L g -> i <> 0%nat -> get_node g i = Some n -> n_done n = false -> BaseOf g i n base bv -> Prepared g i base g1 -> Waiting g i ->
    DvL L g1 /\ (derived_in L (n_parsed n) -> nin (g_edges g1) i = 0%nat).
  Proof.
    intros I D Hi0 Hi Hd HB HP HW. destruct base as [b|].
    - destruct HP as (m & R). destruct HB as [(_ & HB & _)|(path & b' & nb & Hp & HB & Hbe & Hb & Hl & _)]; [discriminate|]. injection HB as <-.
      assert (Hder := base_edge _ _ _ Hbe). destruct (derived_edge ps NDC nobody g KS b i n path I Hi0 Hi Hd Hp Hder) as (nb' & Hb' & _ & _ & Hb0 & Hcl & Hdv & _).
      assert (I0 : Iv ps nobody (remove_edge g b i) KS) by (exact (iv_remove ps nobody g KS b i nb n I Hb Hi Hcl)).
      assert (D0 : DvL L (remove_edge g b i)). { intros x nx Hx Hdx. assert (K := nin_remove b i (g_edges g) x). specialize (D x nx Hx Hdx). cbn [remove_edge g_edges]. lia. }
      split.
      + apply (dv_rep _ _ _ _ _ R (proj1 I0) L D0). intros d j nd Hm Hnd Hdd a Ha. apply (HW b d nd Hder) with (a := a); [|exact Hnd|exact Hdd|exact (remove_first_In _ _ _ _ Ha)]. exact (desc_remove _ _ _ _ _ (rep_desc _ _ _ _ _ R _ _ Hm)).
      + intros Hdp. rewrite (nin_old _ _ _ _ _ R i) by (apply get_node_slot in Hi; change (get_slot g i <> None); congruence). cbn [remove_edge g_edges].
        assert (K : Datatypes.S (nin (remove_first b i (g_edges g)) i) = nin (g_edges g) i) by (apply nin_remove_self; [eauto|]; intros t Ht; rewrite (same_level_edges ps nobody g KS b i nb n t I Hb Hi Hcl Ht); reflexivity).
        specialize (D i n Hi Hdp). rewrite Hd in D. lia.
    - cbn in HP. subst g1. split; [exact D|]. intros [_ K]. destruct HB as [(HB & _)|(path & b & nb & _ & HB & _)]; congruence.
  Qed.
  Lemma dv_update g KS i n base bv v (tmpl : bool) ws g' : Iv ps nobody g KS -> DvL L g -> i <> 0%nat -> get_node g i = Some n -> n_done n = false -> unlinked g i ->
    BaseOf g i n base bv -> Waiting g i -> update_node g i base v tmpl = (ws, Ok g') -> DvL L g' /\ exists n', get_node g' i = Some n' /\ n_done n' = true /\ n_parsed n' = n_parsed n.
  Proof.
    intros I D Hi0 Hi Hd Hno HB HW H. destruct (update_node_spec _ _ _ _ _ _ _ _ (proj1 I) Hi H) as (g1 & HP & Hnp & Wf' & Hs & He & _). cbn zeta in *.
    destruct (dv_prepared _ _ _ _ _ _ _ I D Hi0 Hi Hd HB HP HW) as [D1 N1]. destruct (iv_prepared ps NDC _ _ _ _ _ _ _ I Hi0 Hi Hd Hno HB HP) as (KS1 & I1 & _ & _ & Hi1 & _).
    match type of He with _ = set_resolved _ _ ?x => set (cs := x) in * end.
    assert (Hcs : forall c, In c cs -> In c (ckids (g_edges g1) i)).
    { intros c Hc. apply element_childrens_In in Hc as (t & K1 & K2 & _). apply ckids_In. exists t. split; [|exact K2]. unfold set_node in K1. cbn in K1. exact K1. }
    assert (Hnin : forall x, nin (g_edges g') x = nin (g_edges g1) x). { intros x. rewrite He. apply nin_resolved. intros c t Hc Hin. exact (child_edges ps NDC (only i) g1 KS1 i n c t I1 Hi1 (Hcs _ Hc) Hin). }
    assert (Hni : get_node g' i = Some (mk_node (n_name n) (n_level n) true (n_parsed n) (Some v) (tmpl || n_tmpl n))) by (apply get_node_slot; now rewrite Hs, Nat.eqb_refl).
    split; [|eexists; split; [exact Hni|split; reflexivity]]. intros x nx Hx Hdx. rewrite Hnin. destruct (Nat.eq_dec x i) as [->|Hne].
    - rewrite Hni in Hx. injection Hx as <-. cbn in Hdx |- *. rewrite (N1 Hdx). lia.
    - apply (D1 x nx); [|exact Hdx]. rewrite <- Hx. symmetry. apply get_node_same. rewrite Hs. destruct (Nat.eqb_spec i x); [congruence|reflexivity].
  Qed.
  Lemma dv_process g KS i ws g' : Iv ps nobody g KS -> DvL L g -> i <> 0%nat -> undone_at g i -> unlinked g i -> Waiting g i -> process_node g i = (ws, Ok g') -> DvL L g'.
  Proof.
    intros I D Hi0 (n & Hi & Hd) Hno HW H. destruct (process_node_inv _ _ _ _ H) as (n0 & base & bv & Hi2 & Hpd & HB & Hor). rewrite Hi in Hi2. injection Hi2 as <-.
    destruct Hor as [(e & He & w & H1)|(Hev & w & H1)].
    - destruct (iv_evc ps NDC _ _ _ _ _ _ _ _ _ I Hi0 Hi Hd Hno He HB H1) as (_ & _ & K2 & _ & K4). intros x nx Hx Hdx.
      assert (Hne : x <> i).
      { intros ->. assert (K : exists e', n_parsed nx = PaEvc e').
        { destruct (process_evc_spec g i base w g' n (proj1 I) Hi H1) as [(_ & _ & ->)|(b & nb & e' & g1 & _ & _ & K & _ & _ & G1 & ->)].
          - apply get_node_slot in Hx. rewrite (set_node_slot _ _ _ _ Hi), Nat.eqb_refl in Hx. injection Hx as <-. eauto.
          - apply get_node_slot in Hx. rewrite (set_node_slot _ _ _ _ G1), Nat.eqb_refl in Hx. injection Hx as <-. cbn. eauto. }
        destruct K as [e' K]. rewrite K in Hdx. destruct Hdx as [K' _]. exact (HL K'). }
      rewrite K2 in Hx by exact Hne. specialize (D x nx Hx Hdx). destruct K4 as [->|[b ->]]; [exact D|]. assert (K := nin_remove b i (g_edges g) x). lia.
    - destruct (process_dimable_inv _ _ _ _ _ _ _ H1) as (w0 & isd & names & displays & w' & v & vs & Hdim & Hcr & w'' & Hup). destruct isd.
      + destruct (update_dim_node_spec _ _ _ _ _ _ _ _ (proj1 I) Hi Hup) as (gu & xs & (wu & Hu) & Wf' & Hkeep & _ & Hxs & Hnd & Hx & Ho & He).
        destruct (dv_update _ _ _ _ _ _ _ _ _ _ I D Hi0 Hi Hd Hno HB HW Hu) as [Du _].
        assert (Wfu : WF gu) by (destruct (update_node_spec _ _ _ _ _ _ _ _ (proj1 I) Hi Hu) as (g1 & _ & _ & K & _); exact K).
        assert (Hnin : forall x, nin (g_edges g') x = nin (g_edges gu) x).
        { intros x. rewrite He, !nin_app, (nin_zero (rev (map (fun jc => _) _)) x), (nin_zero (rev (map (fun x => (i_par x, _, _)) _)) x); [reflexivity| |]; intros a t K; apply in_rev, in_map_iff in K as (y & K & _); injection K as _ _ <-; reflexivity. }
        intros x nx Hn Hdx. rewrite Hnin. destruct (in_dec Nat.eq_dec x (map i_idx xs)) as [Kin|Kin].
        * apply in_map_iff in Kin as (y & <- & Ky). destruct (Hx _ Ky) as [F1 _]. rewrite nin_zero; [lia|]. intros a t K. destruct (wf_edge _ Wfu _ _ _ K). congruence.
        * apply (Du x nx); [|exact Hdx]. rewrite <- Hn. symmetry. now apply get_node_same, Ho.
      + exact (proj1 (dv_update _ _ _ _ _ _ _ _ _ _ I D Hi0 Hi Hd Hno HB HW Hup)).
  Qed.
End Process.

(** ** Levels of children *)
Section Phase.
  Context (ps0 : list svd_periph) (NDC : forall a e, MayBeBase ps0 a -> level_of a = LCluster -> Inside a e -> ~ derived_cluster e).
  Local Notation ps := (loose ps0).

  Lemma level_device e : Declared ps e -> level_of e <> LDevice.
  Proof. destruct e as [|?|[?|? ?]|?|?]; cbn; intros H; [destruct H|discriminate|discriminate|discriminate|discriminate|discriminate]. Qed.
  Lemma root_kid W g KS c nc : NInv ps W g KS -> Kid g 0 c -> get_node g c = Some nc -> n_level nc = LPeripheral.
  Proof.
    intros V K Hc. assert (Hr := v_root _ _ _ _ V). assert (He : is_elem g 0 = true) by (unfold is_elem; now rewrite Hr). destruct (child_level _ _ _ _ _ _ _ V Hr K) as (_ & nc' & Hnc & Elc & _). rewrite Hc in Hnc. injection Hnc as <-.
    destruct (v_kids _ _ _ _ V _ He) as (fams & HP & HF). apply (Permutation_in _ HP) in K. destruct (Fams_in _ _ _ _ _ _ _ _ HF K) as (e & fam & Hine & _ & Hfam & Hin). destruct (Fam_level _ _ _ _ _ _ _ _ Hfam Hin) as (nc' & Hnc & Hl). rewrite Hc in Hnc. injection Hnc as <-.
    rewrite Elc, Hl. destruct (v_prov _ _ _ _ V _ _ _ Hr Hine) as [[_ L]|(e0 & L1 & L2 & L3)]; [exact L|]. exfalso. cbn in L2. destruct L1 as [->|[[L1 _] _]]; [destruct L3|]. exact (level_device _ L1 L2).
  Qed.
  Lemma per_parent W g KS p c nc : NInv ps W g KS -> EInv g -> Kid g p c -> get_node g c = Some nc -> n_level nc = LPeripheral -> p = 0%nat.
  Proof.
    intros V E K Hc Hl. destruct (Nat.eq_dec p 0) as [|Hp]; [assumption|exfalso]. apply ckids_In in K as K'. destruct K' as (t & K1 & K2). destruct (w_child _ E _ _ _ K1 K2) as [Kp _]. apply is_elem_iff in Kp as [np Kp].
    destruct (child_level _ _ _ _ _ _ _ V Kp K) as (_ & nc' & Hnc & _ & Hlt). rewrite Hc in Hnc. injection Hnc as <-. rewrite Hl in Hlt. destruct (v_node _ _ _ _ V _ _ Hp Kp) as (El & HD & _).
    apply (level_device _ HD). rewrite <- El. destruct Hlt as [Hlt|[_ Hlt]]; [|discriminate]. destruct (n_level np); cbn in Hlt; try lia. reflexivity.
  Qed.
  (** ** Derived clusters below a base *)
  Lemma der_below g KS b i n path d nd : Iv ps nobody g KS -> i <> 0%nat -> get_node g i = Some n -> n_done n = false -> derived_of (n_parsed n) = Some path -> In (b, i, DERIVE) (g_edges g) ->
    Desc g b d -> get_node g d = Some nd -> dpc (n_parsed nd) ->
    level_of (n_parsed nd) = LCluster /\ exists a, MayBeBase ps a /\ Inside a (n_parsed nd) /\ (level_of a = LCluster \/ n_level n = LPeripheral).
  Proof.
    intros I Hi0 Hi Hd Hp Hder HD Hnd Hdp. destruct (derived_edge ps NDC nobody g KS b i n path I Hi0 Hi Hd Hp Hder) as (nb & Hb & Hlb & _ & Hb0 & _ & Hdv & Hmb).
    destruct I as (Wf & V & E). destruct (desc_below _ _ _ _ _ _ _ V E Hb HD) as [(nd' & K1 & Kd0 & Klt)|(q & K & _)]; [|apply get_node_slot in Hnd; congruence]. rewrite Hnd in K1. injection K1 as <-.
    destruct (v_node _ _ _ _ V _ _ Kd0 Hnd) as (Eld & _). rewrite Eld, Hlb in Klt. destruct Hdp as [[L|L] Hdd]; rewrite L in Klt.
    { exfalso. destruct Klt as [Klt|[_ Klt]]; [|discriminate]. apply Hdv. destruct (n_level n); cbn in Klt; try lia. reflexivity. }
    split; [exact L|]. destruct Hmb as [Hmb|Hmb]; [rewrite Hmb in Klt; destruct Klt as [Klt|[Klt _]]; [cbn in Klt; lia|discriminate]|].
    destruct (desc_inside _ _ _ _ _ _ _ _ V E Hb0 Hb Hmb HD Hnd) as [K|(a & A1 & A2 & A3)]; [congruence|]. exists a. split; [exact A1|]. split; [exact A2|]. apply inside_lt in A2. rewrite L in A2.
    destruct A2 as [A2|[A2 _]]; [|now left]. right. assert (La : level_of a = LPeripheral). { destruct A1 as [A1 _]. assert (Q := level_device _ A1). destruct (level_of a); cbn in A2; try lia; [congruence|reflexivity]. }
    rewrite La, Hlb in A3. destruct A3 as [A3|[A3|[_ A3]]]; [now symmetry|cbn in A3; destruct (n_level n); cbn in *; try lia; congruence|discriminate].
  Qed.
  Lemma waiting_low g KS i n : Iv ps nobody g KS -> i <> 0%nat -> get_node g i = Some n -> n_done n = false -> n_level n <> LPeripheral \/ (forall a e, MayBeBase ps a -> Inside a e -> ~ derived_cluster e) -> Waiting pc g i.
  Proof.
    intros I Hi0 Hi Hd Hor b d nd Hder HD Hnd Hdp a _. destruct (w_der _ (proj2 (proj2 I)) _ _ Hder) as (na & n' & _ & Hn' & _ & [[K _]|(path & Hp & _)]); [rewrite Hi in Hn'; injection Hn' as <-; congruence|]. rewrite Hi in Hn'. injection Hn' as <-.
    destruct (der_below g KS b i n path d nd I Hi0 Hi Hd Hp Hder HD Hnd Hdp) as (L & x & X1 & X2 & X3). destruct Hor as [Hor|Hor]; [destruct X3 as [X3|X3]; [|contradiction]; apply (NDC x (n_parsed nd) X1 X3 X2)|apply (Hor x (n_parsed nd) X1 X2)]; split; [exact L|apply Hdp|exact L|apply Hdp].
  Qed.

  Lemma waiting_static L g KS i n : (forall a e, MayBeBase ps a -> Inside a e -> ~ derived_in L e) -> ~ L LEnum -> Iv ps nobody g KS -> i <> 0%nat -> get_node g i = Some n -> n_done n = false -> Waiting L g i.
  Proof.
    intros Hst HLe I Hi0 Hi Hd b d nd Hder HD Hnd Hdp a Ha. destruct (w_der _ (proj2 (proj2 I)) _ _ Hder) as (na & n' & _ & Hn' & _ & [[K _]|(path & Hp & _)]); [rewrite Hi in Hn'; injection Hn' as <-; congruence|]. rewrite Hi in Hn'. injection Hn' as <-.
    destruct (derived_edge ps NDC nobody g KS b i n path I Hi0 Hi Hd Hp Hder) as (nb & Hb & Hlb & _ & Hb0 & _ & Hdv & Hmb).
    destruct I as (Wf & V & E). destruct (desc_below _ _ _ _ _ _ _ V E Hb HD) as [(nd' & K1 & Kd0 & Klt)|(q & K & _)]; [|apply get_node_slot in Hnd; congruence]. rewrite Hnd in K1. injection K1 as <-.
    destruct Hmb as [Hmb|Hmb]; [rewrite Hlb, Hmb in Klt; destruct Klt as [Klt|[Klt _]]; [destruct (n_level nd); cbn in Klt; lia|discriminate]|].
    destruct (desc_inside _ _ _ _ _ _ _ _ V E Hb0 Hb Hmb HD Hnd) as [K|(x & A1 & A2 & A3)]; [destruct (v_node _ _ _ _ V _ _ Kd0 Hnd) as (Eld & _); apply HLe; rewrite <- K, Eld; exact (proj1 Hdp)|]. exact (Hst x _ A1 A2 Hdp).
  Qed.

  (** ** What processing an element does to levels and derivation edges *)
  Lemma process_effect g KS i ws g' : Iv ps nobody g KS -> i <> 0%nat -> undone_at g i -> unlinked g i -> process_node g i = (ws, Ok g') ->
    (forall x nx, get_node g x = Some nx -> exists nx', get_node g' x = Some nx' /\ n_level nx' = n_level nx) /\
    (forall a c, In (a, c, DERIVE) (g_edges g') -> In (a, c, DERIVE) (g_edges g) \/ exists b d a', In (b, i, DERIVE) (g_edges g) /\ Desc g b d /\ In (a', d, DERIVE) (g_edges g)).
  Proof.
    intros I Hi0 (n & Hi & Hd) Hno H. destruct (process_node_inv _ _ _ _ H) as (n0 & base & bv & Hi2 & Hpd & HB & Hor). rewrite Hi in Hi2. injection Hi2 as <-.
    destruct Hor as [(e & He & w & H1)|(Hev & w & H1)].
    - destruct (iv_evc ps NDC _ _ _ _ _ _ _ _ _ I Hi0 Hi Hd Hno He HB H1) as (_ & _ & K2 & _ & K4). split.
      + intros x nx Hx. destruct (Nat.eq_dec x i) as [->|Hne]; [|exists nx; rewrite K2; auto]. rewrite Hi in Hx. injection Hx as <-.
        destruct (process_evc_spec g i base w g' n (proj1 I) Hi H1) as [(_ & _ & ->)|(b & nb & e' & g1 & _ & _ & K & _ & _ & G1 & ->)]; eexists; (split; [apply get_node_slot; first [rewrite (set_node_slot _ _ _ _ Hi)|rewrite (set_node_slot _ _ _ _ G1)]; rewrite Nat.eqb_refl; reflexivity|reflexivity]).
      + intros a c K. left. destruct K4 as [K4|[b K4]]; rewrite K4 in K; [exact K|exact (remove_first_In _ _ _ _ K)].
    - destruct (process_dimable_inv _ _ _ _ _ _ _ H1) as (w0 & isd & names & displays & w' & v & vs & Hdim & Hcr & w'' & Hup).
      assert (Hup' : exists tv t w4 gu, update_node g i base tv t = (w4, Ok gu) /\ (forall x nx, get_node gu x = Some nx -> get_node g' x = Some nx) /\ (forall a c, In (a, c, DERIVE) (g_edges g') -> In (a, c, DERIVE) (g_edges gu))).
      { destruct isd.
        - destruct (update_dim_node_spec _ _ _ _ _ _ _ n (proj1 I) Hi Hup) as (gu & xs & (w4 & Hu) & _ & Hkeep & _ & _ & _ & _ & _ & He).
          exists (with_name (parsed_name (n_parsed n)) v), true, w4, gu. split; [exact Hu|]. split; [exact (keeps_keepsE _ _ Hkeep)|]. intros a c K. rewrite He in K. apply in_app_iff in K as [K|K]; [|apply in_app_iff in K as [K|K]; [|exact K]]; exfalso; apply in_rev, in_map_iff in K as (y & K & _); discriminate K.
        - exists v, false, w'', g'. split; [exact Hup|]. auto. }
      destruct Hup' as (tv & t & w4 & gu & Hu & HN & HE). destruct (update_node_spec g i base tv t w4 gu n (proj1 I) Hi Hu) as (g1 & HP & _ & _ & Hsl & He & _). cbn zeta in *. split.
      + intros x nx Hx. destruct (Nat.eq_dec x i) as [->|Hne].
        * rewrite Hi in Hx. injection Hx as <-. eexists. split; [apply HN, get_node_slot; rewrite Hsl, Nat.eqb_refl; reflexivity|reflexivity].
        * exists nx. split; [|reflexivity]. apply HN, get_node_slot. rewrite Hsl. destruct (Nat.eqb_spec i x); [congruence|]. apply get_node_slot. exact (keeps_keepsE _ _ (proj2 (prepared_keeps _ _ _ _ (proj1 I) HP)) _ _ Hx).
      + intros a c K. apply HE in K. destruct (iv_prepared ps NDC _ _ _ _ _ _ _ I Hi0 Hi Hd Hno HB HP) as (KS1 & I1 & _ & _ & Hi1 & _).
        match type of He with _ = set_resolved _ _ ?x => set (cs := x) in * end.
        assert (Hcs : forall c, In c cs -> In c (ckids (g_edges g1) i)).
        { intros c0 Hc. apply element_childrens_In in Hc as (u & K1 & K2 & _). apply ckids_In. exists u. split; [|exact K2]. unfold set_node in K1. cbn in K1. exact K1. }
        destruct (set_resolved_facts i cs (g_edges g1)) as (_ & C2); [intros c0 u Hc Hin; exact (child_edges ps NDC (only i) g1 KS1 i n c0 u I1 Hi1 (Hcs _ Hc) Hin)|].
        rewrite He in K. apply C2 in K; [|reflexivity]. destruct base as [b|]; [|cbn in HP; subst g1; now left]. destruct HP as (m & R). destruct HB as [(_ & HB & _)|(path & b' & nb & Hp & HB & Hbe & Hb & Hl & _)]; [discriminate|]. injection HB as <-.
        assert (Hder := base_edge _ _ _ Hbe). destruct (rp_edges _ _ _ _ _ R) as (new & Hne & Hnew). rewrite Hne in K. apply in_app_iff in K as [K|K]; [|left; exact (remove_first_In _ _ _ _ K)].
        assert (HD : forall d j, In (d, j) m -> Desc g b d) by (intros d j Hm; exact (desc_remove _ _ _ _ _ (rep_desc _ _ _ _ _ R _ _ Hm))).
        right. apply Hnew in K as [(d0 & d & L1 & L2 & L3)|[(d & L1 & L2 & _)|(_ & d & t0 & _ & _ & L3)]].
        * exists b, d, d0. split; [exact Hder|]. split; [exact (HD _ _ L2)|exact (remove_first_In _ _ _ _ L3)].
        * exists b, d, a. split; [exact Hder|]. split; [exact (HD _ _ L1)|exact (remove_first_In _ _ _ _ L2)].
        * exfalso. symmetry in L3. exact (attach_not_der _ _ _ L3).
  Qed.

  (** ** The first round: only peripherals can be linked to their bases *)
  Definition First (g : graph) : Prop := forall x n, get_node g x = Some n -> n_done n = true -> x = 0%nat.
  Definition Dp (g : graph) : Prop := forall a c, In (a, c, DERIVE) (g_edges g) -> exists nc, get_node g c = Some nc /\ n_level nc = LPeripheral.
  Definition Top (g : graph) : Prop := forall c t, In (0%nat, c, t) (g_edges g) -> is_child t = true -> t = CHILD_RESOLVED.
  Definition Start (g : graph) (KS : nat -> list parsed) : Prop := Iv ps nobody g KS /\ KS 0%nat = map PaPer ps0 /\ First g /\ Dp g /\ Top g /\ Sh g.

  Lemma start_initialization w g : initialization ps0 = (w, Ok g) -> exists KS, Start g KS.
  Proof.
    intros H. destruct (st_initialization ps _ _ H) as (KS & (Wf & V & E & N) & E0). assert (B := bi_initialization _ _ _ H). assert (Hsh := tr_initialization _ _ _ H).
    exists KS. split; [split; auto|]. split; [exact E0|]. split.
    - intros x n Hx Hd. destruct (Nat.eq_dec x 0) as [|Hx0]; [assumption|exfalso]. destruct (v_node _ _ _ _ V _ _ Hx0 Hx) as (_ & HD & _). rewrite (bi_done _ B _ _ Hx Hd) in HD. destruct HD.
    - split; [|split; [intros c t K1 K2; now apply (bi_top _ B 0%nat c t K1 K2)|exact Hsh]]. intros a c K. exfalso. exact (N _ _ K).
  Qed.
  Lemma top_child g KS c nc : Start g KS -> get_node g c = Some nc -> n_level nc = LPeripheral -> Kid g 0 c.
  Proof.
    intros ((Wf & V & E) & _ & _ & _ & _ & Hsh) Hc Hl. assert (He : is_elem g c = true) by (unfold is_elem; now rewrite Hc). assert (R := sh_root _ Hsh _ He). apply clos_rt_rtn1 in R. inversion R as [K|y z K _ K2]; subst.
    - exfalso. rewrite (v_root _ _ _ _ V) in Hc. injection Hc as <-. discriminate.
    - rewrite (per_parent _ _ _ _ _ _ V E K Hc Hl) in K. exact K.
  Qed.
  Lemma ph_edges_kept g h ws g' a c : resolve_placeholder g h = (ws, Ok g') -> In (a, c, PLACEHOLDER) (g_edges g') -> In (a, c, PLACEHOLDER) (g_edges g).
  Proof.
    intros H K. destruct (resolve_ph_inv _ _ _ _ H) as [->|(p & pn & c0 & n & path & b & _ & _ & _ & _ & _ & _ & _ & _ & Eg)]; [exact K|]. rewrite Eg in K. destruct K as [K|K]; [discriminate|]. cbn in K. apply filter_In in K as [K _]. exact K.
  Qed.
  Lemma start_resolve g KS h ws g' : Start g KS -> resolve_placeholder g h = (ws, Ok g') -> Start g' KS /\ forall x, get_node g' x = get_node g x.
  Proof.
    intros (I & E0 & Fi & De & To & Hsh) H. assert (I' := iv_resolve_ph ps _ _ _ _ _ _ I H). destruct (resolve_ph_spec _ _ _ _ (proj1 I) H) as (_ & K1 & K2).
    assert (Hn : forall x, get_node g' x = get_node g x).
    { intros x. destruct (get_node g x) as [n|] eqn:En; [now apply K1|]. destruct (get_node g' x) as [n|] eqn:En1; [|reflexivity]. apply K2 in En1. congruence. }
    split; [|exact Hn]. split; [exact I'|]. split; [exact E0|]. assert (S' : Sh g') by (eapply sh_resolve_ph; [apply I|exact Hsh|exact H]).
    destruct (resolve_ph_inv _ _ _ _ H) as [->|(p & pn & c & n & path & b & Hp & Hpd & Hph & Hhc & Hh & Hc & Hb & Hr & Eg)]; [auto 6|].
    split; [intros x nx Hx; rewrite Hn in Hx; exact (Fi x nx Hx)|]. split; [|split; [|exact S']].
    - intros a d K. rewrite Eg in K. destruct K as [K|K].
      + injection K as <- <-. exists n. rewrite Hn. split; [exact Hc|]. assert (p = 0%nat) by exact (Fi _ _ Hp Hpd). subst p.
        apply (root_kid _ _ _ _ _ (proj1 (proj2 I))) with (2 := Hc). apply (w_link _ (proj2 (proj2 I)) 0%nat h c); auto. unfold is_elem. now rewrite Hp.
      + cbn in K. apply filter_In in K as [K _]. destruct (De _ _ K) as (nd & L1 & L2). exists nd. now rewrite Hn.
    - intros d t K Ht. rewrite Eg in K. destruct K as [K|K]; [injection K as _ _ <-; discriminate|]. cbn in K. apply filter_In in K as [K _]. exact (To _ _ K Ht).
  Qed.
  Context (PPB : PlainPeripheralBases ps).
  (** a placeholder of a peripheral gets resolved *)
  Lemma settled g KS h ws g' c nc : Start g KS -> resolve_placeholder g h = (ws, Ok g') -> get_node g' c = Some nc -> n_level nc = LPeripheral -> ~ In (h, c, PLACEHOLDER) (g_edges g').
  Proof.
    intros HS H Hc Hl K. destruct (start_resolve _ _ _ _ _ HS H) as [_ Hn]. rewrite Hn in Hc. assert (K0 := ph_edges_kept _ _ _ _ _ _ H K). destruct HS as (I & E0 & Fi & De & To & Hsh). destruct I as (Wf & V & E).
    assert (Hc0 : c <> 0%nat) by (intros ->; rewrite (v_root _ _ _ _ V) in Hc; injection Hc as <-; discriminate).
    destruct (w_ph _ E _ _ K0) as [(path & n & Hh & Hc' & Hd & Hdv)|(_ & path & d & Hs & _)]; [|apply get_node_slot in Hc; congruence]. rewrite Hc in Hc'. injection Hc' as <-.
    unfold resolve_placeholder in H. apply bind_ok in H as (w1 & parent & w2 & Hp & H & _).
    unfold get_placeholder_parent in Hp. destruct (map e_src _) as [|p0 [|p1 lp]] eqn:E1 in Hp; [discriminate| |discriminate]. apply ret_ok in Hp as [Hp _]. subst p0.
    assert (H1 : In parent (map e_src (filter (fun e => is_elem g (e_src e) && etype_eqb (e_typ e) PLACEHOLDER) (in_edges g h)))) by (rewrite E1; now left).
    apply in_map_iff in H1 as (e1 & <- & H1). apply filter_In in H1 as [H1 H1']. apply in_edges_In in H1 as [H1 D1]. apply andb_prop in H1' as [T0 T1].
    assert (Ht1 : e_typ e1 = PLACEHOLDER) by (destruct (e_typ e1); auto; discriminate).
    assert (L1 : In (e_src e1, h, PLACEHOLDER) (g_edges g)) by (rewrite <- D1, <- Ht1, <- edge_eta; exact H1).
    assert (Hkid := w_link _ E _ _ _ T0 L1 K0). assert (Ep := per_parent _ _ _ _ _ _ V E Hkid Hc Hl). rewrite Ep in *. rewrite (v_root _ _ _ _ V) in H. cbn [n_done root_node negb] in H.
    apply bind_ok in H as (w3 & child & w4 & Hch & H & _). unfold get_placeholder_child in Hch. destruct (map e_dst _) as [|c0 [|c1 lc]] eqn:E2 in Hch; [discriminate| |discriminate]. apply ret_ok in Hch as [Hch _]. subst c0.
    assert (Hcc : In c (map e_dst (filter (fun e => is_elem g (e_dst e) && etype_eqb (e_typ e) PLACEHOLDER) (out_edges g h)))).
    { apply in_map_iff. exists (h, c, PLACEHOLDER). split; [reflexivity|]. apply filter_In. split; [apply out_edges_In; auto|]. cbn. unfold is_elem. now rewrite Hc. }
    rewrite E2 in Hcc. destruct Hcc as [->|[]]. rewrite Hh, Hc, Hl in H. apply bind_ok in H as (w5 & base & w6 & Hb & H & _). destruct base as [b|].
    - destruct (add_edge _ _ _ _) as [g1|] eqn:Ha; [|discriminate]. apply ret_ok in H as [H _]. subst g1. apply add_edge_eq in Ha as [-> _]. destruct K as [K|K]; [discriminate|]. cbn in K. apply filter_In in K as [_ K]. cbn in K. rewrite Nat.eqb_refl in K. discriminate.
    - destruct (path_resolving_spec _ _ _ _ _ _ Hb) as [_ Hfar]. destruct (v_node _ _ _ _ V _ _ Hc0 Hc) as (El & HD & _).
      destruct (n_parsed nc) as [|pc|[|]|?|?] eqn:Epc; rewrite Hl in El; try discriminate. cbn in HD, Hdv. destruct (PPB pc path HD Hdv) as (P1 & P2 & q & P3 & P4).
      assert (He0 : is_elem g 0%nat = true) by (unfold is_elem; now rewrite (v_root _ _ _ _ V)). destruct (v_kids _ _ _ _ V _ He0) as (fams & HP & HF). rewrite E0 in HF.
      assert (Hq : exists b nb, In b (concat fams) /\ get_node g b = Some nb /\ n_parsed nb = PaPer q).
      { clear - HF P3. revert HF P3. generalize (map PaPer ps0) at 1. intros sc. generalize ps0 at 2 3. intros l. revert fams. induction l as [|p l IH]; intros fams HF Hin; [destruct Hin|]. cbn [map] in HF. inversion HF as [|? fam ? fams' HF1 HF2]; subst. destruct Hin as [->|Hin].
        - inversion HF1; subst; try contradiction; eexists _, _; (split; [left; reflexivity|]); eauto.
        - destruct (IH _ HF2 Hin) as (b & nb & L1 & L2 & L3). exists b, nb. split; [cbn; apply in_app_iff; now right|auto]. }
      destruct Hq as (b & nb & B1 & B2 & B3). assert (Kb : Kid g 0 b) by (eapply Permutation_in; [symmetry; exact HP|exact B1]).
      assert (Hlb := root_kid _ _ _ _ _ V Kb B2). assert (Hb0 : b <> 0%nat) by (intros ->; rewrite (v_root _ _ _ _ V) in B2; injection B2 as <-; discriminate).
      destruct (v_node _ _ _ _ V _ _ Hb0 B2) as (_ & _ & Un & _). destruct (n_done nb) eqn:Edb; [exfalso; exact (Hb0 (Fi _ _ B2 Edb))|]. destruct (Un eq_refl) as (_ & _ & Nm & _). rewrite B3 in Nm. cbn in Nm. rewrite P4 in Nm.
      apply (Hfar b). rewrite P1. eapply Leads_last; [|intros ->|exact B2|exact Nm|exact Hlb].
      + rewrite (children_ckids _ _ E). exact Kb.
      + rewrite B2 in Hc. injection Hc as ->. rewrite B3 in Epc. injection Epc as ->. exact (P2 P4).
  Qed.
  Lemma start_resolves l : forall g KS ws g', Start g KS -> foldM resolve_placeholder g l = (ws, Ok g') -> Start g' KS /\ (forall x, get_node g' x = get_node g x) /\
    (forall a c, In (a, c, PLACEHOLDER) (g_edges g') -> In (a, c, PLACEHOLDER) (g_edges g)) /\
    forall h c nc, In h l -> get_node g' c = Some nc -> n_level nc = LPeripheral -> ~ In (h, c, PLACEHOLDER) (g_edges g').
  Proof.
    induction l as [|h l IH]; intros g KS ws g' HS H; cbn in H; [apply ret_ok in H as [<- _]; split; [exact HS|]; split; [auto|]; split; [auto|]; intros ? ? ? []|].
    apply bind_ok in H as (w1 & g1 & w2 & H1 & H & _). destruct (start_resolve _ _ _ _ _ HS H1) as [HS1 Hn1]. destruct (IH _ _ _ _ HS1 H) as (HS2 & Hn2 & He2 & Hph2).
    split; [exact HS2|]. split; [intros x; now rewrite Hn2|]. split; [intros a c K; exact (ph_edges_kept _ _ _ _ _ _ H1 (He2 _ _ K))|].
    intros x c nc [<-|Hx] Hc Hl K; [|exact (Hph2 x c nc Hx Hc Hl K)]. rewrite Hn2 in Hc. exact (settled _ _ _ _ _ _ _ HS H1 Hc Hl (He2 _ _ K)).
  Qed.
  (** every peripheral is in the first list of elements to process *)
  Lemma first_list g KS ws g' x nx : Start g KS -> resolve_placeholders g = (ws, Ok g') -> get_node g' x = Some nx -> n_level nx = LPeripheral -> n_done nx = false -> In x (topological_sorted g' (find_processable g')).
  Proof.
    intros HS H Hx Hl Hd. destruct (start_resolves _ _ _ _ _ HS H) as (HS' & Hn & He & Hph). assert (Wf' := proj1 (proj1 HS')). apply (topological_sorted_spec _ _ Wf'). assert (Hun : unprocessed g' x = true) by (unfold unprocessed; rewrite Hx, Hd; reflexivity). split; [|exact Hun].
    unfold find_processable. apply filter_In. split.
    - replace (dfs_fuel g' (unprocessed_root_nodes g')) with (dfs_fuel g' (rev (unprocessed_root_nodes g'))) by (unfold dfs_fuel; now rewrite rev_length).
      apply (dfs_reach g').
      + intros y. unfold processable_succ. destruct (has_incoming g' PLACEHOLDER y); [cbn; lia|]. unfold get_element_childrens. rewrite map_length. apply filter_length_le.
      + exists x. split; [|apply rt_refl]. apply -> in_rev. unfold unprocessed_root_nodes. apply filter_In. split.
        * unfold unprocessed_nodes. apply filter_In. split; [|exact Hun]. apply node_indices_In. apply get_node_slot in Hx. congruence.
        * assert (K := top_child _ _ _ _ HS' Hx Hl). apply ckids_In in K as (t & K1 & K2). destruct HS' as (_ & _ & _ & _ & To & _). rewrite (To _ _ K1 K2) in K1.
          unfold has_incoming. apply existsb_exists. exists (0%nat, x, CHILD_RESOLVED). split; [apply in_edges_In; auto|reflexivity].
    - apply negb_true_iff. destruct (has_incoming g' PLACEHOLDER x) eqn:Eh; [exfalso|reflexivity]. unfold has_incoming in Eh. apply existsb_exists in Eh as ([[a d] t] & K1 & K2). apply in_edges_In in K1 as [K1 K3]. cbn in K2, K3. subst d.
      assert (t = PLACEHOLDER) by (destruct t; auto; discriminate). subst t. destruct (w_ph _ (proj2 (proj2 (proj1 HS'))) _ _ K1) as [(path & n & Hs & _)|(_ & path & d & Hs & _)]; [|apply get_node_slot in Hx; congruence].
      apply (Hph a x nx); auto. destruct (w_ph _ (proj2 (proj2 (proj1 HS))) _ _ (He _ _ K1)) as [(path' & n' & Hs' & _)|(_ & path' & d & Hs' & _)]; [|rewrite Hn in Hx; apply get_node_slot in Hx; congruence].
      apply (wf_phs _ (proj1 (proj1 HS))). eauto.
  Qed.
End Phase.

(** ** The rounds *)
Section Rounds.
  Context (ps0 : list svd_periph) (NDC : forall a e, MayBeBase ps0 a -> level_of a = LCluster -> Inside a e -> ~ derived_cluster e).
  Local Notation ps := (loose ps0).
  (** all peripherals are finished *)
  Definition AllPer (g : graph) : Prop := forall x n, get_node g x = Some n -> n_level n = LPeripheral -> n_done n = true.
  Definition PerIn (g : graph) (l : list nat) : Prop := forall x n, get_node g x = Some n -> n_level n = LPeripheral -> n_done n = false -> In x l.
  Lemma per_process W g KS i ws g' l : Iv ps W g KS -> W = nobody -> i <> 0%nat -> undone_at g i -> unlinked g i -> process_node g i = (ws, Ok g') -> PerIn g (i :: l) -> PerIn g' l.
  Proof.
    intros I -> Hi0 Hu Hun H HP x n Hx Hl Hd. destruct (process_shrinks ps NDC g KS i ws g' I Hi0 Hu Hun H) as (ni & Hi & Hdi & Hsh).
    assert (R : rank n = 1%nat) by (unfold rank; now rewrite Hl). destruct (Hsh x n Hx Hd) as [Hne Hgx].
    - rewrite R. destruct (v_node _ _ _ _ (proj1 (proj2 I)) _ _ Hi0 Hi) as (El & HD & _). assert (L := level_device ps _ HD). rewrite <- El in L. unfold rank. destruct (n_level ni), (derived_of (n_parsed ni)); try lia; congruence.
    - destruct (HP x n Hgx Hl Hd) as [->|K]; [congruence|exact K].
  Qed.
  Lemma under_level g KS i b d nd : Iv ps nobody g KS -> i <> 0%nat -> In (b, i, DERIVE) (g_edges g) -> Desc g b d -> get_node g d = Some nd -> n_level nd <> LPeripheral.
  Proof.
    intros (Wf & V & E) Hi0 Hder HD Hnd Hl. destruct (w_der _ E _ _ Hder) as (nb & ni & Hb & Hi & Hlv & _). destruct (desc_below _ _ _ _ _ _ _ V E Hb HD) as [(nd' & K1 & _ & Klt)|(q & K & _)]; [|apply get_node_slot in Hnd; congruence].
    rewrite Hnd in K1. injection K1 as <-. rewrite Hl, Hlv in Klt. destruct (v_node _ _ _ _ V _ _ Hi0 Hi) as (El & HDc & _). apply (level_device ps _ HDc). rewrite <- El. destruct Klt as [Klt|[_ Klt]]; [|discriminate]. destruct (n_level ni); cbn in Klt; try lia. reflexivity.
  Qed.
  Lemma waiting_first g KS i : Iv ps nobody g KS -> i <> 0%nat -> Dp g -> Waiting pc g i.
  Proof.
    intros I Hi0 De b d nd Hder HD Hnd _ a K. destruct (De _ _ K) as (nc & L1 & L2). rewrite Hnd in L1. injection L1 as <-. exact (under_level _ _ _ _ _ _ I Hi0 Hder HD Hnd L2).
  Qed.
  Lemma first_fold l : forall g KS ws g', Iv ps nobody g KS -> Dp g -> Dv g -> PerIn g l -> NoDup l -> ~ In 0%nat l -> (forall i, In i l -> undone_at g i /\ unlinked g i) -> foldM process_node g l = (ws, Ok g') ->
    (exists KS', Iv ps nobody g' KS') /\ Dv g' /\ AllPer g'.
  Proof.
    induction l as [|i l IH]; intros g KS ws g' I De D HP Hnd H0 Hl H; cbn in H.
    - apply ret_ok in H as [<- _]. split; [eauto|]. split; [exact D|]. intros x n Hx Hlv. destruct (n_done n) eqn:Ed; [reflexivity|]. destruct (HP x n Hx Hlv Ed).
    - apply bind_ok in H as (w1 & g1 & w2 & H1 & H & _). inversion Hnd as [|? ? Hni Hnd']; subst. destruct (Hl i (or_introl eq_refl)) as [Hu Hun]. assert (Hi0 : i <> 0%nat) by (intros ->; apply H0; now left).
      destruct (weak_process ps0 NDC g KS i w1 g1 I Hi0 Hu Hun H1) as (KS1 & I1 & _ & Hst).
      apply (IH g1 KS1 w2 g'); auto.
      + destruct (process_effect ps NDC g KS i w1 g1 I Hi0 Hu Hun H1) as [P1 P2]. intros a c K. destruct (P2 _ _ K) as [K'|(b & d & a' & Q1 & Q2 & Q3)].
        * destruct (De _ _ K') as (nc & L1 & L2). destruct (P1 _ _ L1) as (nc' & L3 & L4). exists nc'. split; [exact L3|congruence].
        * exfalso. destruct (De _ _ Q3) as (nd & L1 & L2). exact (under_level _ _ _ _ _ _ I Hi0 Q1 Q2 L1 L2).
      + apply (dv_process ps NDC pc pc_enum g KS i w1 g1); auto. exact (waiting_first _ _ _ I Hi0 De).
      + exact (per_process _ _ _ _ _ _ _ I eq_refl Hi0 Hu Hun H1 HP).
      + intros K. apply H0. now right.
      + intros j Hj. destruct (Hl j (or_intror Hj)). apply Hst; auto. intros ->. contradiction.
  Qed.
  Definition Static : Prop := forall a e, MayBeBase ps a -> Inside a e -> ~ derived_cluster e.
  Lemma low_fold l : forall g KS ws g', Iv ps nobody g KS -> AllPer g \/ Static -> Dv g -> NoDup l -> ~ In 0%nat l -> (forall i, In i l -> undone_at g i /\ unlinked g i) -> foldM process_node g l = (ws, Ok g') ->
    (exists KS', Iv ps nobody g' KS') /\ Dv g' /\ (AllPer g' \/ Static).
  Proof.
    induction l as [|i l IH]; intros g KS ws g' I Mo D Hnd H0 Hl H; cbn in H; [apply ret_ok in H as [<- _]; eauto|].
    apply bind_ok in H as (w1 & g1 & w2 & H1 & H & _). inversion Hnd as [|? ? Hni Hnd']; subst. destruct (Hl i (or_introl eq_refl)) as [Hu Hun]. assert (Hi0 : i <> 0%nat) by (intros ->; apply H0; now left).
    destruct (weak_process ps0 NDC g KS i w1 g1 I Hi0 Hu Hun H1) as (KS1 & I1 & _ & Hst).
    apply (IH g1 KS1 w2 g'); auto.
    - destruct Mo as [Mo|Mo]; [left|now right]. assert (HP : PerIn g1 []).
      { apply (per_process _ _ _ _ _ _ _ I eq_refl Hi0 Hu Hun H1). intros x n Hx Hlv Hd. rewrite (Mo x n Hx Hlv) in Hd. discriminate. }
      intros x n Hx Hlv. destruct (n_done n) eqn:Ed; [reflexivity|]. destruct (HP x n Hx Hlv Ed).
    - apply (dv_process ps NDC pc pc_enum g KS i w1 g1); auto. destruct Hu as (n & Hi & Hd). apply (waiting_low ps NDC g KS i n I Hi0 Hi Hd). destruct Mo as [Mo|Mo]; [left|now right]. intros Hlv. rewrite (Mo i n Hi Hlv) in Hd. discriminate.
    - intros K. apply H0. now right.
    - intros j Hj. destruct (Hl j (or_intror Hj)). apply Hst; auto. intros ->. contradiction.
  Qed.
  Lemma round_list g KS : Iv ps nobody g KS -> let l := topological_sorted g (find_processable g) in NoDup l /\ ~ In 0%nat l /\ forall i, In i l -> undone_at g i /\ unlinked g i.
  Proof.
    intros I. destruct (topological_sorted_spec g (find_processable g) (proj1 I)) as (Hnd & _ & Hin). split; [exact Hnd|]. split.
    - intros K. apply Hin in K as [_ K]. unfold unprocessed in K. rewrite (v_root _ _ _ _ (proj1 (proj2 I))) in K. discriminate.
    - intros i K. apply Hin in K as [L1 L2]. split.
      + unfold unprocessed in L2. destruct (get_node g i) as [n|] eqn:En; [|discriminate]. exists n. split; [exact En|]. now destruct (n_done n).
      + unfold find_processable in L1. apply filter_In in L1 as [_ L1]. intros a Ha. unfold has_incoming in L1. apply negb_true_iff in L1.
        assert (K : existsb (fun e => etype_eqb (e_typ e) PLACEHOLDER) (in_edges g i) = true); [|congruence]. apply existsb_exists. exists (a, i, PLACEHOLDER). split; [|reflexivity].
        unfold in_edges. apply filter_In. split; [exact Ha|]. cbn. apply Nat.eqb_refl.
  Qed.
  Lemma low_rounds fuel : forall g KS prev ws g', Iv ps nobody g KS -> AllPer g \/ Static -> Dv g -> rounds fuel g prev = (ws, Ok g') -> Dv g'.
  Proof.
    induction fuel as [|fuel IH]; intros g KS prev ws g' I Mo D H; cbn [rounds] in H; [minv|]. apply bind_ok in H as (w1 & g1 & w2 & H1 & H & _).
    assert (I1 : Iv ps nobody g1 KS) by (eapply iv_resolve_phs; [exact I|exact H1]). assert (D1 : Dv g1) by exact (dv_resolve_phs _ _ _ _ _ _ _ _ I D H1).
    assert (Mo1 : AllPer g1 \/ Static). { destruct Mo as [Mo|Mo]; [left|now right]. destruct (resolve_phs_spec _ _ _ (proj1 I) H1) as (_ & _ & K2). intros x n Hx. exact (Mo x n (K2 _ _ Hx)). }
    destruct (round_list g1 KS I1) as (Hnd & H0 & Hl). destruct (topological_sorted g1 (find_processable g1)) as [|x l] eqn:Et; [apply ret_ok in H as [<- _]; exact D1|].
    apply bind_ok in H as (w3 & u & w4 & _ & H & _). apply bind_ok in H as (w5 & g2 & w6 & H2 & H & _).
    destruct (low_fold _ g1 KS w5 g2 I1 Mo1 D1 Hnd H0 Hl H2) as ((KS2 & I2) & D2 & Mo2). exact (IH _ _ _ _ _ I2 Mo2 D2 H).
  Qed.
  Lemma dv_final fuel w0 g0 ws g : PlainPeripheralBases ps0 \/ Static -> initialization ps0 = (w0, Ok g0) -> rounds fuel g0 [] = (ws, Ok g) -> Dv g.
  Proof.
    intros Mo H0 H. destruct (start_initialization ps0 _ _ H0) as (KS & HS). assert (D := bi_dv pc _ (bi_initialization _ _ _ H0)). assert (I := proj1 HS).
    destruct Mo as [PPB|Mo]; [|exact (low_rounds fuel g0 KS [] ws g I (or_intror Mo) D H)].
    destruct fuel as [|fuel]; cbn [rounds] in H; [minv|]. apply bind_ok in H as (w1 & g1 & w2 & H1 & H & _).
    destruct (start_resolves ps PPB _ _ _ _ _ HS H1) as (HS1 & _). assert (D1 : Dv g1) by exact (dv_resolve_phs _ _ _ _ _ _ _ _ I D H1). assert (I1 := proj1 HS1).
    assert (HP : PerIn g1 (topological_sorted g1 (find_processable g1))) by (intros x nx Hx Hl Hd; exact (first_list ps PPB _ _ _ _ _ _ HS H1 Hx Hl Hd)).
    destruct (round_list g1 KS I1) as (Hnd & Hz & Hl). destruct (topological_sorted g1 (find_processable g1)) as [|x l] eqn:Et; [apply ret_ok in H as [<- _]; exact D1|].
    apply bind_ok in H as (w3 & u & w4 & _ & H & _). apply bind_ok in H as (w5 & g2 & w6 & H2 & H & _).
    destruct (first_fold _ g1 KS w5 g2 I1 (proj1 (proj2 (proj2 (proj2 HS1)))) D1 HP Hnd Hz Hl H2) as ((KS2 & I2) & D2 & Ap). exact (low_rounds fuel g2 KS2 _ _ _ I2 (or_introl Ap) D2 H).
  Qed.
  Section Still.
    Context (L : level -> Prop) (HLe : ~ L LEnum) (Hst : forall a e, MayBeBase ps a -> Inside a e -> ~ derived_in L e).
    Lemma still_fold l : forall g KS ws g', Iv ps nobody g KS -> DvL L g -> NoDup l -> ~ In 0%nat l -> (forall i, In i l -> undone_at g i /\ unlinked g i) -> foldM process_node g l = (ws, Ok g') ->
      (exists KS', Iv ps nobody g' KS') /\ DvL L g'.
    Proof.
      induction l as [|i l IH]; intros g KS ws g' I D Hnd H0 Hl H; cbn in H; [apply ret_ok in H as [<- _]; eauto|].
      apply bind_ok in H as (w1 & g1 & w2 & H1 & H & _). inversion Hnd as [|? ? Hni Hnd']; subst. destruct (Hl i (or_introl eq_refl)) as [Hu Hun]. assert (Hi0 : i <> 0%nat) by (intros ->; apply H0; now left).
      destruct (weak_process ps0 NDC g KS i w1 g1 I Hi0 Hu Hun H1) as (KS1 & I1 & _ & Hst').
      apply (IH g1 KS1 w2 g'); auto.
      - apply (dv_process ps NDC L HLe g KS i w1 g1); auto. destruct Hu as (n & Hi & Hd). exact (waiting_static ps NDC L g KS i n Hst HLe I Hi0 Hi Hd).
      - intros K. apply H0. now right.
      - intros j Hj. destruct (Hl j (or_intror Hj)). apply Hst'; auto. intros ->. contradiction.
    Qed.
    Lemma still_rounds fuel : forall g KS prev ws g', Iv ps nobody g KS -> DvL L g -> rounds fuel g prev = (ws, Ok g') -> DvL L g'.
    Proof.
      induction fuel as [|fuel IH]; intros g KS prev ws g' I D H; cbn [rounds] in H; [minv|]. apply bind_ok in H as (w1 & g1 & w2 & H1 & H & _).
      assert (I1 : Iv ps nobody g1 KS) by (eapply iv_resolve_phs; [exact I|exact H1]). assert (D1 : DvL L g1) by exact (dv_resolve_phs _ _ _ _ _ _ _ _ I D H1).
      destruct (round_list g1 KS I1) as (Hnd & H0 & Hl). destruct (topological_sorted g1 (find_processable g1)) as [|x l] eqn:Et; [apply ret_ok in H as [<- _]; exact D1|].
      apply bind_ok in H as (w3 & u & w4 & _ & H & _). apply bind_ok in H as (w5 & g2 & w6 & H2 & H & _).
      destruct (still_fold _ g1 KS w5 g2 I1 D1 Hnd H0 Hl H2) as ((KS2 & I2) & D2). exact (IH _ _ _ _ _ I2 D2 H).
    Qed.
    Lemma still_final fuel w0 g0 ws g : initialization ps0 = (w0, Ok g0) -> rounds fuel g0 [] = (ws, Ok g) -> DvL L g.
    Proof.
      intros H0 H. destruct (start_initialization ps0 _ _ H0) as (KS & HS). exact (still_rounds fuel g0 KS [] ws g (proj1 HS) (bi_dv L _ (bi_initialization _ _ _ H0)) H).
    Qed.
  End Still.
End Rounds.
Lemma dv_edge L ps g KS a c n : DvL L g -> ~ L LEnum -> Iv (loose ps) nobody g KS -> get_node g c = Some n -> n_done n = true -> L (n_level n) -> ~ In (a, c, DERIVE) (g_edges g).
Proof.
  intros D HLe I Hc Hd Hl K. destruct (w_der _ (proj2 (proj2 I)) _ _ K) as (na & nb & _ & Hb & _ & Hor). rewrite Hc in Hb. injection Hb as <-.
  destruct Hor as [[_ L']|(path & Hp & _)]; [rewrite L' in Hl; contradiction|].
  assert (Hc0 : c <> 0%nat) by (intros ->; rewrite (v_root _ _ _ _ (proj1 (proj2 I))) in Hc; injection Hc as <-; discriminate).
  destruct (v_node _ _ _ _ (proj1 (proj2 I)) _ _ Hc0 Hc) as (El & _). assert (Hdp : derived_in L (n_parsed n)) by (split; [now rewrite <- El|congruence]).
  specialize (D c n Hc Hdp). rewrite Hd in D. assert (Z0 : nin (g_edges g) c = 0%nat) by lia. assert (Q := nin_In _ _ _ _ Z0 K). discriminate.
Qed.
(** no derivation edge to a peripheral or cluster is left *)
Lemma no_left ps KS fuel w0 g0 ws g a c n : PlainBases ps -> initialization ps = (w0, Ok g0) -> rounds fuel g0 [] = (ws, Ok g) -> Iv (loose ps) nobody g KS ->
  get_node g c = Some n -> n_done n = true -> pc (n_level n) -> ~ In (a, c, DERIVE) (g_edges g).
Proof. intros [NDC Mo] H0 H I Hc Hd Hl. exact (dv_edge pc ps g KS a c n (dv_final ps NDC fuel w0 g0 ws g Mo H0 H) pc_enum I Hc Hd Hl). Qed.
(** ... nor to a register or field, if no base contains a derived one *)
Definition rf (lv : level) : Prop := lv = LRegister \/ lv = LField.
Lemma no_left_low ps KS fuel w0 g0 ws g a c n : PlainBases ps -> (forall a e, MayBeBase ps a -> Inside a e -> ~ derived_in rf e) -> initialization ps = (w0, Ok g0) -> rounds fuel g0 [] = (ws, Ok g) -> Iv (loose ps) nobody g KS ->
  get_node g c = Some n -> n_done n = true -> rf (n_level n) -> ~ In (a, c, DERIVE) (g_edges g).
Proof.
  intros [NDC _] Hst H0 H I Hc Hd Hl. assert (HLe : ~ rf LEnum) by (intros [K|K]; discriminate). exact (dv_edge rf ps g KS a c n (still_final ps NDC rf HLe Hst fuel w0 g0 ws g H0 H) HLe I Hc Hd Hl).
Qed.
