(** * TermFacts: the main loop of the resolver terminates when no cluster that may be a base contains a derived cluster.
    Processing an element finishes it and creates unfinished elements only at higher ranks. *)
From Verif Require Import Base PyStr PyInt Types DimModel EnumModel ElemModel FinalModel ResolveModel ProcessModel SpecProcess SpecDeclared SpecExpand.
From Verif Require Import GraphFacts ReplicateFacts ResolveWF TopoFacts EffectFacts FuelFacts ResolveInv DescribeFacts ExpandInv ExpandBuild ExpandStep ExpandNode ExpandRounds.

(** ** a measure: numbers of unfinished elements per level, compared lexicographically *)
Definition Lower (k : nat) (f' f : nat -> nat) : Prop := exists l, (l < k)%nat /\ (f' l < f l)%nat /\ forall l', (l' < l)%nat -> (f' l' <= f l')%nat.
Lemma lower_ind (k : nat) (P : (nat -> nat) -> Prop) : (forall f, (forall f', Lower k f' f -> P f') -> P f) -> forall f, P f.
Proof.
  intros H. assert (C : forall j l, (l + j = k)%nat -> forall f, (forall f', Lower l f' f -> P f') -> P f).
  { induction j as [|j IH]; intros l Hl.
    - rewrite Nat.add_0_r in Hl. subst l. exact H.
    - assert (Hn : forall n f, (f l < n)%nat -> (forall f', Lower l f' f -> P f') -> P f).
      { induction n as [|n IHn]; intros f Hf HP; [lia|]. apply (IH (Datatypes.S l)); [lia|]. intros f' (l0 & K1 & K2 & K3).
        destruct (Nat.eq_dec l0 l) as [->|Hne]; [|apply HP; exists l0; repeat split; auto; lia].
        apply IHn; [lia|]. intros f'' (l1 & L1 & L2 & L3). apply HP. exists l1. split; [exact L1|]. split; [specialize (K3 l1 L1); lia|].
        intros l' Hl'. specialize (L3 l' Hl'). specialize (K3 l'). lia. }
      intros f HP. eapply Hn; [apply Nat.lt_succ_diag_r|exact HP]. }
  intros f. apply (C k 0%nat); [reflexivity|]. intros f' (l & K & _). lia.
Qed.

(** derived clusters rank before the others *)
Definition rank (n : node) : nat := match n_level n with LDevice => 0 | LPeripheral => 1 | LCluster => match derived_of (n_parsed n) with Some _ => 2 | None => 3 end | LRegister => 4 | LField => 5 | LEnum => 6 end.
Lemma rank_lt a b : (lnum (n_level a) < lnum (n_level b))%nat -> (rank a < rank b)%nat.
Proof. unfold rank. destruct (n_level a), (n_level b), (derived_of (n_parsed a)), (derived_of (n_parsed b)); cbn; lia. Qed.
Definition undone_level (g : graph) (l : nat) (x : nat) : bool := match get_node g x with Some n => negb (n_done n) && Nat.eqb (rank n) l | None => false end.
Definition todo (g : graph) (l : nat) : nat := length (filter (undone_level g l) (node_indices g)).
(** [i] got finished; everything else unfinished at its rank or before was so before *)
Definition Shrinks (g : graph) (i : nat) (g' : graph) : Prop := exists n, get_node g i = Some n /\ n_done n = false /\
  forall x nx, get_node g' x = Some nx -> n_done nx = false -> (rank nx <= rank n)%nat -> x <> i /\ get_node g x = Some nx.
Lemma todo_le g g' l (Q : nat -> Prop) : (forall x, undone_level g' l x = true -> undone_level g l x = true) -> (todo g' l <= todo g l)%nat.
Proof.
  intros H. apply NoDup_incl_length; [apply NoDup_filter, node_indices_NoDup|]. intros x Hx. apply filter_In in Hx as [_ Hx]. apply H in Hx. apply filter_In. split; [|exact Hx].
  apply node_indices_In. unfold undone_level in Hx. destruct (get_node g x) as [n|] eqn:E; [|discriminate]. apply get_node_slot in E. congruence.
Qed.
Lemma shrinks_lower g i g' : Shrinks g i g' -> Lower 7 (todo g') (todo g).
Proof.
  intros (n & Hi & Hd & Hx). exists (rank n). split; [unfold rank; destruct (n_level n), (derived_of (n_parsed n)); lia|].
  assert (K : forall l, (l <= rank n)%nat -> forall x, undone_level g' l x = true -> x <> i /\ undone_level g l x = true).
  { intros l Hl x H. unfold undone_level in H. destruct (get_node g' x) as [nx|] eqn:E; [|discriminate]. apply andb_true_iff in H as [H1 H2]. apply negb_true_iff in H1. apply Nat.eqb_eq in H2.
    destruct (Hx x nx E H1) as [K1 K2]; [lia|]. split; [exact K1|]. unfold undone_level. rewrite K2, H1, H2. cbn. apply Nat.eqb_refl. }
  split.
  - assert (X : (length (i :: filter (undone_level g' (rank n)) (node_indices g')) <= todo g (rank n))%nat); [|cbn in X; unfold todo in *; lia].
    apply NoDup_incl_length.
    + constructor; [|apply NoDup_filter, node_indices_NoDup]. intros X. apply filter_In in X as [_ X]. apply K in X as [X _]; [now apply X|lia].
    + intros x [<-|X]; apply filter_In.
      * split; [apply node_indices_In; apply get_node_slot in Hi; congruence|]. unfold undone_level. rewrite Hi, Hd. cbn. apply Nat.eqb_refl.
      * apply filter_In in X as [_ X]. apply K in X as [_ X]; [|lia]. split; [|exact X]. apply node_indices_In. unfold undone_level in X. destruct (get_node g x) as [m|] eqn:E; [|discriminate]. apply get_node_slot in E. congruence.
  - intros l Hl. apply (todo_le g g' l (fun _ => True)). intros x X. apply K in X as [_ X]; [exact X|lia].
Qed.

Lemma set_node_at g i n n' : get_slot g i = Some (NElem n) -> get_slot (set_node g i n') i = Some (NElem n').
Proof.
  intros H. rewrite get_slot_set, Nat.eqb_refl, andb_true_l. destruct (Nat.ltb_spec i (length (g_slots g))); [reflexivity|]. exfalso. unfold get_slot in H. rewrite nth_overflow in H; [discriminate|assumption].
Qed.
Section Term.
  Context (ps0 : list svd_periph) (NDC : forall a e, MayBeBase ps0 a -> level_of a = LCluster -> Inside a e -> ~ derived_cluster e).
  Local Notation ps := (loose ps0).

  Lemma prepared_shrinks g KS i n base bv g1 : Iv ps nobody g KS -> i <> 0%nat -> get_node g i = Some n -> n_done n = false -> BaseOf g i n base bv -> Prepared g i base g1 ->
    forall x nx, get_node g1 x = Some nx -> (rank nx <= rank n)%nat -> get_node g x = Some nx.
  Proof.
    intros I Hi0 Hi Hd HB HP x nx Hx Hle. destruct base as [b|]; [|cbn in HP; subst g1; exact Hx].
    destruct HP as (m & R). destruct HB as [(_ & HB & _)|(path & b' & nb & Hp & HB & Hbe & Hb & Hl & _)]; [discriminate|]. injection HB as <-.
    assert (Hder := base_edge _ _ _ Hbe). destruct (derived_edge ps NDC nobody g KS b i n path I Hi0 Hi Hd Hp Hder) as (nb' & Hb' & _ & _ & Hb0 & Hcl & Hdv & Hmb). rewrite Hb in Hb'. injection Hb' as <-.
    assert (I0 : Iv ps nobody (remove_edge g b i) KS) by (exact (iv_remove ps nobody g KS b i nb n I Hb Hi Hcl)).
    destruct (rp_only _ _ _ _ _ R x) as [K|K]; [apply get_node_slot in Hx; congruence| |].
    - destruct (get_slot (remove_edge g b i) x) as [s|] eqn:Es; [|congruence]. assert (Es' := rp_keeps _ _ _ _ _ R x s Es). unfold get_node in *. rewrite Es' in Hx. change (get_slot g x) with (get_slot (remove_edge g b i) x). rewrite Es. exact Hx.
    - apply in_map_iff in K as ((d & j) & Ej & K). cbn in Ej. subst j. assert (Kn := rep_node ps (remove_edge g b i) KS b i g1 m I0 R d x K). rewrite Hx in Kn. symmetry in Kn.
      exfalso. destruct (rep_elem_below ps (remove_edge g b i) KS b i nb g1 m I0 Hb R d x nx K Kn) as [Hd0 [K1|[K1 K2]]]; [rewrite Hl in K1; apply rank_lt in K1; lia|].
      assert (Hrk : rank n = 2%nat) by (unfold rank; rewrite <- Hl, K1, Hp; reflexivity). destruct Hmb as [Hmb|Hmb]; [congruence|].
      destruct (v_node _ _ _ _ (proj1 (proj2 I0)) _ _ Hd0 Kn) as (Elx & _).
      destruct (derived_of (n_parsed nx)) as [q|] eqn:Eq; [|unfold rank in Hle at 1; rewrite K2, Eq in Hle; lia].
      destruct (desc_inside ps nobody (remove_edge g b i) KS b nb d nx (proj1 (proj2 I0)) (proj2 (proj2 I0)) Hb0 Hb Hmb (rep_desc _ _ _ _ _ R _ _ K) Kn) as [L|(a & A1 & A2 & A3)]; [congruence|].
      assert (La : level_of a = LCluster). { destruct A3 as [A3|A3]; [congruence|]. rewrite K1 in A3. apply inside_lt in A2. rewrite <- Elx, K2 in A2. destruct A2 as [A2|[A2 _]]; [|exact A2]. destruct A3 as [A3|[_ A3]]; [cbn in *; lia|exact A3]. }
      apply (NDC a (n_parsed nx) A1 La A2). split; [congruence|]. rewrite Eq. discriminate.
  Qed.
  Lemma process_shrinks g KS i ws g' : Iv ps nobody g KS -> i <> 0%nat -> undone_at g i -> unlinked g i -> process_node g i = (ws, Ok g') -> Shrinks g i g'.
  Proof.
    intros I Hi0 (n0 & Hi0' & Hd) Hun H. destruct (process_node_inv _ _ _ _ H) as (n & base & bv & Hi & Hdev & HB & Hcase). rewrite Hi in Hi0'. injection Hi0' as <-.
    exists n. split; [exact Hi|]. split; [exact Hd|]. intros x nx Hx Hdx Hle.
    destruct Hcase as [(e & He & w & Hev)|(He & w & Hdi)].
    - destruct (iv_evc ps NDC g KS i n base bv e w g' I Hi0 Hi Hd Hun He HB Hev) as (_ & _ & Hsame & _).
      assert (Hne : x <> i).
      { intros ->. destruct (process_evc_spec g i base w g' n (proj1 I) Hi Hev) as [(_ & _ & ->)|(b & nb & e' & g1 & _ & _ & _ & _ & _ & G1 & ->)].
        - apply get_node_slot in Hi. unfold get_node in Hx. rewrite (set_node_at _ _ _ _ Hi) in Hx. injection Hx as <-. discriminate.
        - apply get_node_slot in G1. unfold get_node in Hx. rewrite (set_node_at _ _ _ _ G1) in Hx. injection Hx as <-. discriminate. }
      split; [exact Hne|]. now rewrite <- (Hsame x Hne).
    - destruct (process_dimable_inv _ _ _ _ _ _ _ Hdi) as (w1 & isd & names & disp & w2 & v & vs & _ & _ & w3 & Hup).
      assert (Hup' : exists tv t w4 gu, update_node g i base tv t = (w4, Ok gu) /\ (gu = g' \/ exists js, forall y, get_slot g' y = get_slot gu y \/ In y js /\ exists nj, get_node g' y = Some nj /\ n_done nj = true)).
      { destruct isd.
        - destruct (update_dim_node_spec _ _ _ _ _ _ _ n (proj1 I) Hi Hup) as (gu & xs & (w4 & Hu) & _ & _ & _ & _ & _ & Hin & Hout & _).
          exists (with_name (parsed_name (n_parsed n)) v), true, w4, gu. split; [exact Hu|]. right. exists (map i_idx xs). intros y.
          destruct (in_dec Nat.eq_dec y (map i_idx xs)) as [Hy|Hy]; [right|left; exact (Hout y Hy)]. split; [exact Hy|]. apply in_map_iff in Hy as (z & <- & Hz).
          destruct (Hin z Hz) as [_ Hz']. exists (inst_node n (i_val z)). split; [unfold get_node; now rewrite Hz'|reflexivity].
        - exists v, false, w3, g'. split; [exact Hup|now left]. }
      destruct Hup' as (tv & t & w4 & gu & Hu & Hgu).
      assert (Hxu : get_node gu x = Some nx).
      { destruct Hgu as [->|(js & Hjs)]; [exact Hx|]. destruct (Hjs x) as [K|(_ & nj & K1 & K2)]; [unfold get_node in *; now rewrite <- K|]. rewrite Hx in K1. injection K1 as <-. congruence. }
      destruct (update_node_spec g i base tv t w4 gu n (proj1 I) Hi Hu) as (g1 & HP & _ & _ & Hsl & _).
      assert (Hne : x <> i). { intros ->. specialize (Hsl i). rewrite Nat.eqb_refl in Hsl. unfold get_node in Hxu. rewrite Hsl in Hxu. injection Hxu as <-. discriminate. }
      split; [exact Hne|]. apply (prepared_shrinks g KS i n base bv g1 I Hi0 Hi Hd HB HP); [|exact Hle]. specialize (Hsl x). destruct (Nat.eqb_spec i x); [congruence|]. unfold get_node in *. now rewrite <- Hsl.
  Qed.
  Lemma lower_trans f1 f2 f3 : Lower 7 f1 f2 -> Lower 7 f2 f3 -> Lower 7 f1 f3.
  Proof.
    intros (a & A1 & A2 & A3) (b & B1 & B2 & B3). exists (Nat.min a b). split; [lia|]. split.
    - destruct (Nat.lt_trichotomy a b) as [K|[K|K]]; [rewrite Nat.min_l by lia; specialize (B3 a K); lia|subst; rewrite Nat.min_id; lia|rewrite Nat.min_r by lia; specialize (A3 b K); lia].
    - intros l Hl. specialize (A3 l). specialize (B3 l). lia.
  Qed.
  Lemma fold_shrinks l : forall g KS ws g', Iv ps nobody g KS -> NoDup l -> ~ In 0%nat l -> (forall i, In i l -> undone_at g i /\ unlinked g i) -> foldM process_node g l = (ws, Ok g') ->
    l = [] \/ Lower 7 (todo g') (todo g).
  Proof.
    induction l as [|i l IH]; intros g KS ws g' I Hnd H0 Hl H; [now left|right]. cbn in H. apply bind_ok in H as (w1 & g1 & w2 & H1 & H & _). inversion Hnd as [|? ? Hni Hnd']; subst. destruct (Hl i (or_introl eq_refl)) as [Hu Hun].
    assert (Hi0 : i <> 0%nat) by (intros ->; apply H0; now left).
    assert (HS := shrinks_lower _ _ _ (process_shrinks g KS i w1 g1 I Hi0 Hu Hun H1)).
    destruct (weak_process ps0 NDC g KS i w1 g1 I Hi0 Hu Hun H1) as (KS1 & I1 & E1 & Hst).
    destruct (IH g1 KS1 w2 g' I1 Hnd') as [->|K]; auto.
    - intros K. apply H0. now right.
    - intros j Hj. destruct (Hl j (or_intror Hj)). apply Hst; auto. intros ->. contradiction.
    - cbn in H. apply ret_ok in H as [<- _]. exact HS.
    - exact (lower_trans _ _ _ K HS).
  Qed.
  Lemma oof_fold {A B} (f : A -> B -> M A) l : (forall a b, RE (f a b)) -> forall a, ~ out_of_fuel (foldM f a l).
  Proof. intros H a. apply re_not_oof. em; apply H. Qed.
  Lemma not_oof_bind {A B} (m : M A) (f : A -> M B) : ~ out_of_fuel m -> (forall ws a, m = (ws, Ok a) -> ~ out_of_fuel (f a)) -> ~ out_of_fuel (bind m f).
  Proof. intros H1 H2 H. apply oof_bind in H as [H|(ws & a & K & H)]; [exact (H1 H)|exact (H2 _ _ K H)]. Qed.
  Lemma rounds_terminate f : forall g KS prev, todo g = f -> Iv ps nobody g KS -> exists fuel, ~ out_of_fuel (rounds fuel g prev).
  Proof.
    apply (lower_ind 7 (fun f => forall g KS prev, todo g = f -> Iv ps nobody g KS -> exists fuel, ~ out_of_fuel (rounds fuel g prev))). clear f. intros f IH g KS prev <- I.
    destruct (resolve_placeholders g) as [w1 [g1|e]] eqn:E1.
    2: { exists 1%nat. cbn [rounds]. apply not_oof_bind; [exact (oof_fold resolve_placeholder (g_phs g) re_resolve_ph g)|]. intros ws a Ha. rewrite E1 in Ha. discriminate. }
    assert (I1 : Iv ps nobody g1 KS) by (eapply iv_resolve_phs; [exact I|exact E1]). destruct (resolve_phs_spec _ _ _ (proj1 I) E1) as (_ & K1 & K2).
    assert (Hsame : forall x, get_node g1 x = get_node g x).
    { intros x. destruct (get_node g x) as [n|] eqn:En; [now apply K1|]. destruct (get_node g1 x) as [n|] eqn:En1; [|reflexivity]. apply K2 in En1. congruence. }
    assert (Hstep : forall fuel, (forall x l w2 g2, topological_sorted g1 (find_processable g1) = x :: l -> foldM process_node g1 (x :: l) = (w2, Ok g2) -> ~ out_of_fuel (rounds fuel g2 (x :: l))) -> ~ out_of_fuel (rounds (Datatypes.S fuel) g prev)).
    { intros fuel Hf. cbn [rounds]. apply not_oof_bind; [exact (oof_fold resolve_placeholder (g_phs g) re_resolve_ph g)|]. intros ws a Ha. rewrite E1 in Ha. injection Ha as _ <-.
      destruct (topological_sorted g1 (find_processable g1)) as [|x l]; [intros []|]. apply not_oof_bind; [unfold raise_if; destruct (list_nat_eqb _ _); cbn; [discriminate|intros []]|]. intros _ _ _.
      apply not_oof_bind; [exact (oof_fold process_node (x :: l) re_process_node g1)|]. intros w2 g2 E2. exact (Hf x l w2 g2 eq_refl E2). }
    destruct (topological_sorted g1 (find_processable g1)) as [|x l] eqn:Et; [exists 1%nat; apply Hstep; intros; discriminate|].
    destruct (foldM process_node g1 (x :: l)) as [w2 [g2|e]] eqn:E2; [|exists 1%nat; apply Hstep; intros x0 l0 w2' g2 L1 L2; injection L1 as <- <-; rewrite E2 in L2; discriminate].
    destruct (topological_sorted_spec g1 (find_processable g1) (proj1 I1)) as (Hnd & _ & Hin). rewrite Et in Hnd, Hin.
    assert (H0 : ~ In 0%nat (x :: l)).
    { intros K. apply Hin in K as [_ K]. unfold unprocessed in K. rewrite (v_root _ _ _ _ (proj1 (proj2 I1))) in K. discriminate. }
    assert (Hu : forall i, In i (x :: l) -> undone_at g1 i /\ unlinked g1 i).
    { intros i K. apply Hin in K as [L1 L2]. split.
      - unfold unprocessed in L2. destruct (get_node g1 i) as [n|] eqn:En; [|discriminate]. exists n. split; [exact En|]. now destruct (n_done n).
      - unfold find_processable in L1. apply filter_In in L1 as [_ L1]. intros a Ha. unfold has_incoming in L1. apply negb_true_iff in L1.
        assert (K : existsb (fun e => etype_eqb (e_typ e) PLACEHOLDER) (in_edges g1 i) = true); [|congruence]. apply existsb_exists. exists (a, i, PLACEHOLDER). split; [|reflexivity].
        unfold in_edges. apply filter_In. split; [exact Ha|]. cbn. apply Nat.eqb_refl. }
    destruct (iv_fold ps0 NDC _ g1 KS w2 g2 I1 Hnd H0 Hu E2) as (KS2 & I2 & _).
    destruct (fold_shrinks _ g1 KS w2 g2 I1 Hnd H0 Hu E2) as [K|K]; [discriminate|].
    assert (Ht : Lower 7 (todo g2) (todo g)).
    { destruct K as (a & A1 & A2 & A3). assert (Hle : forall a, (todo g1 a <= todo g a)%nat). { intros c. apply (todo_le g g1 c (fun _ => True)). intros y. unfold undone_level. now rewrite Hsame. }
      exists a. split; [exact A1|]. split; [specialize (Hle a); lia|]. intros c Hc. specialize (A3 c Hc). specialize (Hle c). lia. }
    destruct (IH _ Ht g2 KS2 (x :: l) eq_refl I2) as (fuel & Hf). exists (Datatypes.S fuel). apply Hstep.
    intros x0 l0 w2' g2' L1 L2. injection L1 as <- <-. rewrite E2 in L2. injection L2 as _ <-. exact Hf.
  Qed.
  Theorem resolve_terminates : exists fuel, ~ out_of_fuel (resolve_peripherals fuel ps0).
  Proof.
    destruct (initialization ps0) as [w0 [g0|e]] eqn:E0.
    2: { exists 0%nat. intros K. apply only_rounds in K as (ws & g & K & _). congruence. }
    destruct (st_initialization ps _ _ E0) as (KS & (Wf & V & E & _) & _). destruct (rounds_terminate _ g0 KS [] eq_refl) as (fuel & Hf); [split; auto|].
    exists fuel. intros K. apply only_rounds in K as (ws & g & K & K'). rewrite E0 in K. injection K as _ <-. contradiction.
  Qed.
End Term.
