(** * ExpandNode: processing one node keeps the invariant of ExpandInv. *)
From Coq Require Import Relations.
From Verif Require Import Base PyStr Types DimModel EnumModel ElemModel ResolveModel GraphFacts ReplicateFacts ResolveWF ResolveInv SpecDeclared SpecElem SpecSearch SearchFacts SpecExpand DescribeFacts PropsDim ExpandInv ExpandBuild ExpandStep.

Section Repl.
  Context (i : nat) (js : list nat).
  Definition repl1 (c : nat) : list nat := if Nat.eqb c i then i :: js else [c].
  Lemma repl_none l : ~ In i l -> flat_map repl1 l = l.
  Proof. induction l as [|c l IH]; cbn; intros H; [reflexivity|]. rewrite IH by tauto. unfold repl1. destruct (Nat.eqb_spec c i); [tauto|reflexivity]. Qed.
  Lemma repl_perm l : NoDup l -> In i l -> Permutation (flat_map repl1 l) (l ++ js).
  Proof.
    induction l as [|c l IH]; intros Hnd Hin; [destruct Hin|]. inversion Hnd as [|? ? Hni Hnd']; subst. cbn. unfold repl1 at 1. destruct (Nat.eqb_spec c i) as [->|Hc].
    - rewrite repl_none by assumption. cbn. constructor. apply Permutation_app_comm.
    - destruct Hin as [->|Hin]; [congruence|]. cbn. constructor. auto.
  Qed.
  Lemma repl_concat (fams : list (list nat)) : concat (map (flat_map repl1) fams) = flat_map repl1 (concat fams).
  Proof. induction fams as [|f fams IH]; cbn; [reflexivity|]. now rewrite flat_map_app, IH. Qed.
End Repl.

Section Finish.
  Context (ps : Sys) (W W' : nat -> Prop) (g g' : graph) (KS KS' : nat -> list parsed) (i : nat) (n n' : node) (js : nat -> list nat).
  Context (I : Iv ps W g KS) (Wf' : WF g') (Hi0 : i <> 0%nat) (Hi : get_node g i = Some n) (Hud : n_done n = false)
    (Hno : forall a, ~ In (a, i, PLACEHOLDER) (g_edges g)).
  Definition fresh (j : nat) : Prop := exists p, In j (js p).
  Context (Hi' : get_node g' i = Some n') (Hlv : n_level n' = n_level n) (Hnm : n_name n' = n_name n) (Hdn : n_done n' = true)
    (Hpa : n_parsed n' = n_parsed n \/ n_level n = LEnum)
    (Hold : forall x, x <> i -> ~ fresh x -> get_slot g' x = get_slot g x)
    (Hfr : forall j, fresh j -> get_slot g j = None /\ exists nj, get_node g' j = Some nj /\ n_level nj = n_level n /\ n_parsed nj = n_parsed n /\ NodeOk ps W' KS' j nj)
    (HKS : forall x, ~ fresh x -> KS' x = KS x) (HKSf : forall j, fresh j -> KS' j = KS i)
    (Hjs : forall p, ~ In i (ckids (g_edges g) p) -> js p = []) (Hjnd : forall p, NoDup (js p))
    (Hck : forall x, get_slot g x <> None -> Permutation (ckids (g_edges g') x) (ckids (g_edges g) x ++ js x))
    (Hckf : forall j, fresh j -> Permutation (ckids (g_edges g') j) (ckids (g_edges g) i))
    (Hfam : forall p, In i (ckids (g_edges g) p) -> Fam ps W' g' KS' (KS' p) (n_parsed n) (i :: js p))
    (HW : forall x, x <> i -> W x -> W' x) (Hni : NodeOk ps W' KS' i n')
    (He1 : forall a b t, In (a, b, t) (g_edges g') -> is_child t = false -> In (a, b, t) (g_edges g))
    (He2 : forall a b t, In (a, b, t) (g_edges g) -> is_child t = false -> In (a, b, t) (g_edges g')).

  Let Wf := proj1 I.
  Let V := proj1 (proj2 I).
  Let E := proj2 (proj2 I).

  Lemma fin_old_fresh x s : get_slot g x = Some s -> ~ fresh x.
  Proof. intros H K. destruct (Hfr _ K) as [K' _]. congruence. Qed.
  Lemma fin_slot x : get_slot g' x <> None -> fresh x \/ get_slot g x <> None.
  Proof.
    intros H. destruct (get_slot g x) as [s|] eqn:Es; [right; discriminate|]. left.
    destruct (Nat.eq_dec x i) as [->|Hx]; [apply get_node_slot in Hi; congruence|].
    (* decide by the edges: a slot that was empty and is filled now is fresh *)
    assert (D : ~ ~ fresh x). { intros K. rewrite Hold in H by auto. congruence. }
    assert (Dec : forall p, In x (js p) \/ ~ In x (js p)) by (intros p; destruct (in_dec Nat.eq_dec x (js p)); auto).
    (* only the parents of [i] have instances *)
    assert (Hpar : forall p, In x (js p) -> In p (map e_src (g_edges g))).
    { intros p Hp. destruct (in_dec Nat.eq_dec i (ckids (g_edges g) p)) as [K|K]; [|rewrite (Hjs _ K) in Hp; destruct Hp].
      apply ckids_In in K as (t & K & _). apply in_map_iff. exists (p, i, t). auto. }
    assert (Dl : forall l, (exists p, In p l /\ In x (js p)) \/ ~ (exists p, In p l /\ In x (js p))).
    { induction l as [|p l IH]; [right; intros (p & [] & _)|]. destruct (Dec p) as [K|K]; [left; exists p; split; [now left|exact K]|].
      destruct IH as [(q & K1 & K2)|K1]; [left; exists q; split; [now right|exact K2]|]. right. intros (q & [->|K2] & K3); [contradiction|]. apply K1. eauto. }
    destruct (Dl (map e_src (g_edges g))) as [(p & _ & K)|K]; [now exists p|]. exfalso. apply D. intros (p & Hp). apply K. exists p. split; [now apply Hpar|exact Hp].
  Qed.
  Lemma fin_oldn x : x <> i -> ~ fresh x -> get_node g' x = get_node g x.
  Proof. intros H1 H2. apply get_node_same. auto. Qed.
  Lemma fin_oldn' x nx : x <> i -> get_node g x = Some nx -> get_node g' x = Some nx.
  Proof. intros H1 H2. rewrite fin_oldn; auto. apply get_node_slot in H2. eapply fin_old_fresh; eassumption. Qed.
  Lemma fin_elem x : is_elem g x = true -> is_elem g' x = true.
  Proof. rewrite !is_elem_node. intros [nx H]. destruct (Nat.eq_dec x i) as [->|Hx]; eauto. exists nx. now apply fin_oldn'. Qed.
  Lemma fin_i_fresh : ~ fresh i.
  Proof. apply get_node_slot in Hi. eapply fin_old_fresh; eassumption. Qed.
  Lemma fin_child x nx c : get_node g x = Some nx -> In c (ckids (g_edges g) x) -> c <> i -> get_node g' c = get_node g c /\ (KS' c = KS c \/ undone_at g c) /\ (W c -> W' c).
  Proof.
    intros Hx Hc Hci. destruct (child_level _ _ _ _ _ _ _ V Hx Hc) as (_ & nc & Hnc & _). assert (Hf : ~ fresh c) by (apply get_node_slot in Hnc; eapply fin_old_fresh; eassumption).
    split; [now apply fin_oldn|]. split; [left; auto|auto].
  Qed.
  Lemma fin_fams es fams p np : get_node g p = Some np -> (forall c, In c (concat fams) -> In c (ckids (g_edges g) p)) -> Forall2 (Fam ps W g KS (KS p)) es fams ->
    Forall2 (Fam ps W' g' KS' (KS' p)) es (map (flat_map (repl1 i (js p))) fams).
  Proof.
    intros Hp. assert (EKp : KS' p = KS p) by (apply HKS; apply get_node_slot in Hp; eapply fin_old_fresh; eassumption). revert es. induction fams as [|fam fams IH]; intros es Hc HF; inversion HF as [|e0 fam0 es0 fams0 HA HR]; subst; cbn [map]; constructor.
    - destruct (in_dec Nat.eq_dec i fam) as [Hin|Hin].
      + assert (fam = [i] /\ e0 = n_parsed n) as [-> ->].
        { clear HF. destruct HA as [e c m H1 H2 H3|e c m H1 H2 H3|e1 e' c m H1 H2 H3 H4|e c m v H1 H2 H3 H4 H5 H6|e c m ks vs tv H1 H2 H3 H4 H5 H6 H7].
          1-4: destruct Hin as [->|[]]; rewrite Hi in *; try (injection H1 as <-); try (injection H2 as <-); auto; congruence.
          exfalso. destruct Hin as [->|Hin]; [congruence|]. clear - H7 Hin Hi Hud. induction H7 as [|j v js vs H HF IH]; [destruct Hin|]. destruct Hin as [->|Hin]; auto.
          destruct H as (m & K1 & K2 & _). congruence. }
        cbn. rewrite app_nil_r. unfold repl1. rewrite Nat.eqb_refl. apply Hfam. apply Hc. cbn. now left.
      + rewrite repl_none by assumption. rewrite EKp. eapply Fam_same; [exact HA|]. intros c Hcin. eapply fin_child; [exact Hp| |intros ->; contradiction]. apply Hc. cbn. apply in_app_iff. now left.
    - apply IH; auto. intros c Hcin. apply Hc. cbn. apply in_app_iff. now right.
  Qed.
  Lemma fin_self : ~ In i (ckids (g_edges g) i).
  Proof. intros H. apply ckids_In in H as (t & H & _). apply (wf_acyclic _ Wf i i); [exists t; exact H|apply rt_refl]. Qed.

  Lemma fin_ninv : NInv ps W' g' KS'.
  Proof.
    constructor.
    - apply fin_oldn'; [auto|]. apply (v_root _ _ _ _ V).
    - intros x nx Hx Hn. destruct (Nat.eq_dec x i) as [->|Hxi]; [rewrite Hi' in Hn; injection Hn as <-; exact Hni|].
      assert (Hs : get_slot g' x <> None) by (apply get_node_slot in Hn; congruence). destruct (fin_slot _ Hs) as [Hf|Ho].
      + destruct (Hfr _ Hf) as (_ & nj & K1 & _ & _ & K2). rewrite Hn in K1. injection K1 as <-. exact K2.
      + assert (Hnf : ~ fresh x) by (intros K; destruct (Hfr _ K); congruence). rewrite fin_oldn in Hn by auto. destruct (v_node _ _ _ _ V _ _ Hx Hn) as (H1 & H2 & H3 & H4).
        split; [exact H1|]. split; [exact H2|]. unfold UndoneOk, EvcDone, ElemDone in *. rewrite (HKS _ Hnf). split; [|exact H4].
        intros Hd. destruct (H3 Hd) as (K1 & K2 & K3 & K4). repeat split; auto. destruct K4; auto.
    - intros x Hx. apply is_elem_node in Hx as [nx Hn]. assert (Hs : get_slot g' x <> None) by (apply get_node_slot in Hn; congruence). destruct (fin_slot _ Hs) as [Hf|Ho].
      + eapply (Kids_map ps W W' g KS g' KS' (fun y => y) i x); [apply (v_kids _ _ _ _ V), is_elem_node; eauto|rewrite map_id; auto|auto|].
        intros c Hc. eapply fin_child; [exact Hi|exact Hc|]. intros ->. exact (fin_self Hc).
      + assert (Hnf : ~ fresh x) by (intros K; destruct (Hfr _ K); congruence).
        assert (exists mx, get_node g x = Some mx) as [mx Hm]. { destruct (Nat.eq_dec x i) as [->|Hxi]; [eauto|]. rewrite fin_oldn in Hn by auto. eauto. }
        destruct (v_kids _ _ _ _ V x (proj2 (is_elem_node _ _) (ex_intro _ _ Hm))) as (fams & HP & HF).
        exists (map (flat_map (repl1 i (js x))) fams). split.
        * rewrite (Hck _ Ho), repl_concat. assert (Hnd : NoDup (concat fams)) by (eapply Permutation_NoDup; [exact HP|apply (v_nd _ _ _ _ V)]).
          destruct (in_dec Nat.eq_dec i (concat fams)) as [K|K].
          { rewrite repl_perm by auto. now rewrite HP. }
          rewrite repl_none by auto. rewrite Hjs, app_nil_r; [exact HP|]. intros K2. apply K. eapply Permutation_in; eassumption.
        * rewrite (HKS _ Hnf) at 2. eapply fin_fams; eauto. intros c Hc. eapply Permutation_in; [symmetry; exact HP|exact Hc].
    - intros x. destruct (ckids (g_edges g') x) as [|c0 l0] eqn:Ec; [constructor|].
      assert (Hs : get_slot g' x <> None).
      { assert (K : In c0 (ckids (g_edges g') x)) by (rewrite Ec; now left). apply ckids_In in K as (t & K & _). apply (wf_edge _ Wf' _ _ _ K). }
      rewrite <- Ec. clear Ec. destruct (fin_slot _ Hs) as [Hf|Ho].
      + eapply Permutation_NoDup; [symmetry; apply Hckf, Hf|apply (v_nd _ _ _ _ V)].
      + eapply Permutation_NoDup; [symmetry; apply Hck, Ho|]. apply NoDup_app_intro; [apply (v_nd _ _ _ _ V)|apply Hjnd|].
        intros c K1 K2. destruct (Hfr c) as [K3 _]; [now exists x|]. apply ckids_In in K1 as (t & K1 & _). apply (wf_edge _ Wf) in K1. tauto.
    - intros x nx e Hn He. assert (Hs : get_slot g' x <> None) by (apply get_node_slot in Hn; congruence). destruct (fin_slot _ Hs) as [Hf|Ho].
      + destruct (Hfr _ Hf) as (_ & nj & K1 & K2 & K3 & _). rewrite Hn in K1. injection K1 as <-. rewrite (HKSf _ Hf) in He. unfold Below. rewrite K2, K3. exact (v_prov _ _ _ _ V _ _ _ Hi He).
      + assert (Hnf : ~ fresh x) by (intros K; destruct (Hfr _ K); congruence). rewrite (HKS _ Hnf) in He. destruct (Nat.eq_dec x i) as [->|Hxi].
        * rewrite Hi' in Hn. injection Hn as <-. unfold Below. rewrite Hlv. destruct (v_prov _ _ _ _ V _ _ _ Hi He) as [K|(e0 & K1 & K2 & K3)]; [now left|]. right. exists e0. split; [|auto].
          destruct Hpa as [->|Hen]; [exact K1|]. exfalso. rewrite Hen in K2. destruct e0 as [|?|[?|? ?]|?|?]; try discriminate. destruct K3.
        * rewrite fin_oldn in Hn by auto. eapply (v_prov _ _ _ _ V); eassumption.
  Qed.
  Lemma fin_einv : EInv g'.
  Proof.
    constructor.
    - intros a b t Hin Ht. assert (Hc : In b (ckids (g_edges g') a)) by (apply ckids_In; eauto). destruct (wf_edge _ Wf' _ _ _ Hin) as [Hs _]. destruct (fin_slot _ Hs) as [Hf|Ho].
      + apply (Permutation_in _ (Hckf _ Hf)) in Hc. destruct (Hfr _ Hf) as (_ & nj & K & _). split; [apply is_elem_node; eauto|].
        apply ckids_In in Hc as (u & K1 & K2). apply fin_elem. apply (w_child _ E _ _ _ K1 K2).
      + apply (Permutation_in _ (Hck _ Ho)) in Hc. apply in_app_iff in Hc as [Hc|Hc].
        * apply ckids_In in Hc as (u & K1 & K2). destruct (w_child _ E _ _ _ K1 K2). split; now apply fin_elem.
        * destruct (in_dec Nat.eq_dec i (ckids (g_edges g) a)) as [K|K]; [|rewrite (Hjs _ K) in Hc; destruct Hc].
          apply ckids_In in K as (u & K1 & K2). destruct (w_child _ E _ _ _ K1 K2). split; [now apply fin_elem|]. destruct (Hfr b) as (_ & nj & K3 & _); [now exists a|]. apply is_elem_node; eauto.
    - intros a b Hin. apply He1 in Hin; [|reflexivity]. destruct (w_ph _ E _ _ Hin) as [(path & nc & L1 & L2 & L3)|(L1 & path & y & L2 & L3)].
      + left. exists path, nc. assert (Ha : a <> i) by (intros ->; apply get_node_slot in Hi; congruence). assert (Hb : b <> i) by (intros ->; exact (Hno _ Hin)).
        split; [rewrite Hold; [exact L1|auto|eapply fin_old_fresh; exact L1]|]. split; [now apply fin_oldn'|exact L3].
      + right. split; [now apply fin_elem|]. exists path, y. assert (Hb : b <> i) by (intros ->; exact (Hno _ Hin)).
        split; [rewrite Hold; [exact L2|auto|eapply fin_old_fresh; exact L2]|]. apply He2; auto.
    - intros p h c Hp H1 H2. apply He1 in H1; [|reflexivity]. apply He1 in H2; [|reflexivity].
      assert (Ho : get_slot g p <> None) by apply (wf_edge _ Wf _ _ _ H1).
      assert (Hpe : is_elem g p = true).
      { destruct (Nat.eq_dec p i) as [->|Hpi]; [apply is_elem_node; eauto|]. apply is_elem_node in Hp as [np Hp]. apply is_elem_node. exists np. rewrite <- Hp. symmetry. apply fin_oldn; auto.
        intros K. destruct (Hfr _ K). congruence. }
      eapply Permutation_in; [symmetry; apply (Hck _ Ho)|]. apply in_app_iff. left. eapply (w_link _ E); eassumption.
    - intros a b Hin. apply He1 in Hin; [|reflexivity]. destruct (w_der _ E _ _ Hin) as (na & nb & K1 & K2 & K3 & K4).
      assert (Hna : exists na', get_node g' a = Some na' /\ n_level na' = n_level na /\ n_name na' = n_name na).
      { destruct (Nat.eq_dec a i) as [->|Ha]; [rewrite Hi in K1; injection K1 as <-; eauto|]. exists na. split; [now apply fin_oldn'|auto]. }
      destruct Hna as (na' & L1 & L2 & L3). destruct (Nat.eq_dec b i) as [->|Hb].
      + rewrite Hi in K2. injection K2 as <-. exists na', n'. split; [exact L1|]. split; [exact Hi'|]. split; [congruence|]. rewrite L3, Hlv, Hdn.
        destruct Hpa as [->|Hen]; [|left; auto]. destruct K4 as [[K4 K5]|K4]; auto.
      + exists na', nb. split; [exact L1|]. split; [now apply fin_oldn'|]. split; [congruence|]. rewrite L3. exact K4.
  Qed.
  Lemma fin_iv : Iv ps W' g' KS'.
  Proof. split; [exact Wf'|]. split; [apply fin_ninv|apply fin_einv]. Qed.
End Finish.

(** ** Edges are marked as resolved *)
Lemma upd_first_facts i c es : (forall t, In (i, c, t) es -> is_child t = true) ->
  (forall x, ckids (update_first i c CHILD_RESOLVED es) x = ckids es x) /\
  (forall a b t, is_child t = false -> In (a, b, t) (update_first i c CHILD_RESOLVED es) <-> In (a, b, t) es) /\
  (forall a b t, In (a, b, t) (update_first i c CHILD_RESOLVED es) -> is_child t = true -> exists t', In (a, b, t') es /\ is_child t' = true).
Proof.
  induction es as [|[[p d] t] es IH]; intros H; [cbn; split; [reflexivity|split; [tauto|intros ? ? ? []]]|]. cbn [update_first e_src e_dst fst snd].
  destruct (Nat.eqb_spec p i) as [->|Hp]; cbn [andb]; [destruct (Nat.eqb_spec d c) as [->|Hd]|].
  - assert (Ht : is_child t = true) by (apply H; now left). split; [|split].
    + intros x. rewrite !ckids_cons, Ht. reflexivity.
    + intros a b u Hu. cbn. split; (intros [K|K]; [injection K as <- <- <-; first [discriminate Hu | congruence]|now right]).
    + intros a b u [K|K] Hu; [injection K as <- <- <-; exists t; split; [now left|exact Ht]|exists u; split; [now right|exact Hu]].
  - destruct IH as (I1 & I2 & I3); [intros u Hu; apply H; now right|]. split; [|split].
    + intros x. rewrite !ckids_cons, I1. reflexivity.
    + intros a b u Hu. cbn. rewrite I2 by auto. tauto.
    + intros a b u [K|K] Hu; [exists u; split; [now left|exact Hu]|]. destruct (I3 _ _ _ K Hu) as (t' & K1 & K2). exists t'. split; [now right|exact K2].
  - destruct IH as (I1 & I2 & I3); [intros u Hu; apply H; now right|]. split; [|split].
    + intros x. rewrite !ckids_cons, I1. reflexivity.
    + intros a b u Hu. cbn. rewrite I2 by auto. tauto.
    + intros a b u [K|K] Hu; [exists u; split; [now left|exact Hu]|]. destruct (I3 _ _ _ K Hu) as (t' & K1 & K2). exists t'. split; [now right|exact K2].
Qed.
Lemma set_resolved_facts i cs : forall es, (forall c t, In c cs -> In (i, c, t) es -> is_child t = true) ->
  (forall x, ckids (set_resolved es i cs) x = ckids es x) /\
  (forall a b t, is_child t = false -> In (a, b, t) (set_resolved es i cs) <-> In (a, b, t) es).
Proof.
  induction cs as [|c cs IH]; intros es H; [split; [reflexivity|cbn; tauto]|]. destruct (upd_first_facts i c es) as (I1 & I2 & I3); [intros t; apply H; now left|].
  change (set_resolved es i (c :: cs)) with (set_resolved (update_first i c CHILD_RESOLVED es) i cs).
  destruct (IH (update_first i c CHILD_RESOLVED es)) as (J1 & J2).
  - intros d t Hd Hin. destruct (is_child t) eqn:Et; [reflexivity|]. apply I2 in Hin; [|exact Et]. rewrite <- Et. apply (H d); auto. now right.
  - split; [intros x; now rewrite J1, I1|]. intros a b t Ht. now rewrite J2, I2.
Qed.
Lemma parents_NoDup es i : (forall p, NoDup (ckids es p)) -> NoDup (map e_src (filter (fun e => is_child (e_typ e) && Nat.eqb (e_dst e) i) es)).
Proof.
  induction es as [|[[a b] t] es IH]; intros H; [constructor|].
  assert (H' : forall p, NoDup (ckids es p)). { intros p. specialize (H p). rewrite ckids_cons in H. destruct (is_child t && Nat.eqb a p); [now inversion H|exact H]. }
  cbn [filter e_typ e_dst fst snd]. destruct (is_child t) eqn:Et; cbn [andb]; [|auto]. destruct (Nat.eqb_spec b i) as [->|]; [|auto]. cbn [map e_src fst]. constructor; [|auto].
  intros K. apply in_map_iff in K as ([[a' b'] t'] & K1 & K2). cbn in K1. subst a'. apply filter_In in K2 as [K2 K3]. cbn in K3. apply andb_true_iff in K3 as [K3 K4]. apply Nat.eqb_eq in K4. subst b'.
  specialize (H a). rewrite ckids_cons, Et, Nat.eqb_refl in H. cbn in H. inversion H as [|? ? Hni _]; subst. apply Hni. apply ckids_In. eauto.
Qed.
Lemma element_parents_NoDup g i : EInv g -> (forall p, NoDup (ckids (g_edges g) p)) -> NoDup (get_element_parents g i).
Proof.
  intros E H. assert (K : get_element_parents g i = map e_src (filter (fun e => is_child (e_typ e) && Nat.eqb (e_dst e) i) (g_edges g))); [|rewrite K; now apply parents_NoDup].
  unfold get_element_parents, in_edges. assert (L : forall es, incl es (g_edges g) ->
    filter (fun e => is_elem g (e_src e) && is_child (e_typ e)) (filter (fun e => Nat.eqb (e_dst e) i) es) = filter (fun e => is_child (e_typ e) && Nat.eqb (e_dst e) i) es).
  { induction es as [|[[a b] t] es IH]; intros Hi; [reflexivity|]. cbn [filter e_src e_dst e_typ fst snd]. specialize (IH (fun x H => Hi x (or_intror H))).
    destruct (Nat.eqb b i); [|now rewrite andb_false_r]. cbn [filter e_src e_dst e_typ fst snd]. rewrite andb_true_r. destruct (is_child t) eqn:Et; [|rewrite andb_false_r; exact IH].
    destruct (w_child _ E a b t) as [-> _]; [apply Hi; now left|exact Et|]. cbn. now rewrite IH. }
  rewrite L; [reflexivity|apply incl_refl].
Qed.
Lemma filter_pair {A} (p q : nat) (vs : list A) : filter (fun x => Nat.eqb (fst x) p) (map (pair q) vs) = if Nat.eqb q p then map (pair q) vs else [].
Proof. induction vs as [|v vs IH]; [now destruct (Nat.eqb q p)|]. cbn. rewrite IH. destruct (Nat.eqb q p); reflexivity. Qed.
Lemma filter_prod_none {A} (p : nat) (l : list nat) (vs : list A) : ~ In p l -> filter (fun x => Nat.eqb (fst x) p) (list_prod l vs) = [].
Proof.
  induction l as [|q l IH]; intros Hni; [reflexivity|]. cbn [list_prod]. change (map (fun y => (q, y)) vs) with (map (pair q) vs). rewrite filter_app, filter_pair, IH by (cbn in Hni; tauto).
  destruct (Nat.eqb_spec q p); [|reflexivity]. exfalso. apply Hni. now left.
Qed.
Lemma filter_prod {A} (p : nat) (l : list nat) (vs : list A) : NoDup l -> In p l -> filter (fun x => Nat.eqb (fst x) p) (list_prod l vs) = map (pair p) vs.
Proof.
  induction l as [|q l IH]; intros Hnd Hin; [destruct Hin|]. inversion Hnd as [|? ? Hni Hnd']; subst. cbn [list_prod]. change (map (fun y => (q, y)) vs) with (map (pair q) vs).
  rewrite filter_app, filter_pair. destruct (Nat.eqb_spec q p) as [->|Hq].
  - rewrite filter_prod_none, app_nil_r by auto. reflexivity.
  - destruct Hin as [->|Hin]; [congruence|]. rewrite IH by auto. reflexivity.
Qed.
Lemma filter_map_com {A B} (f : A -> B) (P : B -> bool) l : filter P (map f l) = map f (filter (fun x => P (f x)) l).
Proof. induction l as [|a l IH]; cbn; [reflexivity|]. destruct (P (f a)); cbn; now rewrite IH. Qed.
Lemma ckids_star_other x (l : list (nat * nat)) : (forall jc, In jc l -> fst jc <> x) -> ckids (map (fun jc => (fst jc, snd jc, CHILD_RESOLVED)) l) x = [].
Proof.
  intros H. apply ckids_none. intros c t Hin. apply in_map_iff in Hin as (jc & K & Hin). injection K as K1 K2 <-. exfalso. exact (H _ Hin K1).
Qed.
Lemma ckids_star j js (cs : list nat) : NoDup js -> In j js -> ckids (map (fun jc => (fst jc, snd jc, CHILD_RESOLVED)) (list_prod js cs)) j = cs.
Proof.
  intros Hnd Hin. unfold ckids. rewrite filter_map_com. cbn [e_typ e_src fst snd is_child andb]. rewrite filter_prod by auto. rewrite !map_map. cbn. apply map_id.
Qed.

Section Process.
  Context (ps : Sys) (NDC : forall a e, MayBeBase ps a -> level_of a = LCluster -> Inside a e -> ~ derived_cluster e).
  Definition only (i : nat) : nat -> Prop := fun x => x = i.
  Definition unlinked (g : graph) (i : nat) : Prop := forall a, ~ In (a, i, PLACEHOLDER) (g_edges g).
  (** what is still to be processed in this round stays so *)
  Definition Stays (g g' : graph) (i : nat) : Prop := forall x, x <> i -> undone_at g x -> unlinked g x -> undone_at g' x /\ unlinked g' x.

  Lemma iv_mono (W W' : nat -> Prop) g KS : (forall x, W x -> W' x) -> Iv ps W g KS -> Iv ps W' g KS.
  Proof.
    intros H (Wf & V & E). split; [exact Wf|]. split; [|exact E]. constructor; try apply V.
    - intros i n Hi Hn. destruct (v_node _ _ _ _ V _ _ Hi Hn) as (H1 & H2 & H3 & H4). split; [exact H1|]. split; [exact H2|]. split; [|exact H4].
      intros Hd. destruct (H3 Hd) as (K1 & K2 & K3 & K4). repeat split; auto. destruct K4; auto.
    - intros i Hi. eapply Kids_same; [apply (v_kids _ _ _ _ V _ Hi)|reflexivity|reflexivity|]. intros c _. split; [reflexivity|]. split; [now left|apply H].
  Qed.
  Lemma child_edges W g KS i n c t : Iv ps W g KS -> get_node g i = Some n -> In c (ckids (g_edges g) i) -> In (i, c, t) (g_edges g) -> is_child t = true.
  Proof.
    intros I Hi Hc Hin. assert (E := proj2 (proj2 I)). assert (V := proj1 (proj2 I)). destruct (child_level _ _ _ _ _ _ _ V Hi Hc) as (Hc0 & nc & Hnc & El & Hlt). destruct t; try reflexivity; exfalso.
    - destruct (w_ph _ E _ _ Hin) as [(path & x & K & _)|(_ & path & x & K & _)]; [apply get_node_slot in Hi|apply get_node_slot in Hnc]; congruence.
    - apply (der_not_desc ps NDC W g KS i c I Hin). apply ckids_In in Hc as (t & H1 & H2). apply t_step. exists t. split; [exact H1|]. intros ->. discriminate.
  Qed.
  Lemma base_edge g i b : get_base_element_node g i = Some b -> In (b, i, DERIVE) (g_edges g).
  Proof.
    unfold get_base_element_node. destruct (find _ _) as [[[a c] t]|] eqn:Ef; cbn; intros H; [|discriminate]. injection H as <-. apply find_some in Ef as [H1 H2].
    unfold in_edges in H1. apply filter_In in H1 as [H1 H3]. cbn in H2, H3. apply Nat.eqb_eq in H3. subst c. destruct t; try discriminate. exact H1.
  Qed.

  Lemma desc_remove g b i a d : Desc (remove_edge g b i) a d -> Desc g a d.
  Proof. induction 1 as [x y (t & H & Ht)|x y z _ IH1 _ IH2]; [|eapply t_trans; eassumption]. apply t_step. exists t. split; [|exact Ht]. eapply remove_first_In. exact H. Qed.
  (** the children of the base *)
  Definition Prep (g : graph) (KS : nat -> list parsed) (i : nat) (base : option nat) (g1 : graph) (KS2 : nat -> list parsed) : Prop :=
    match base with Some b => exists m, Replicated (remove_edge g b i) b i g1 m /\ KS2 = KS1 KS b i m | None => g1 = g /\ KS2 = KS end.
  Lemma iv_prepared g KS i n base bv g1 : Iv ps nobody g KS -> i <> 0%nat -> get_node g i = Some n -> n_done n = false -> unlinked g i -> BaseOf g i n base bv -> Prepared g i base g1 ->
    exists KS1, Iv ps (only i) g1 KS1 /\ KS1 i = KS i ++ match base with Some b => KS b | None => [] end /\ KS1 0%nat = KS 0%nat /\ get_node g1 i = Some n /\ unlinked g1 i /\ Stays g g1 i /\
      Prep g KS i base g1 KS1 /\ (forall p, Kid g1 p i -> Kid g p i /\ KS1 p = KS p).
  Proof.
    intros I Hi0 Hi Hd Hno HB HP. destruct base as [b|].
    - destruct HP as (m & R). destruct HB as [(_ & HB & _)|(path & b' & nb & Hp & HB & Hbe & Hb & Hl & _)]; [discriminate|]. injection HB as <-.
      assert (Hder := base_edge _ _ _ Hbe). destruct (derived_edge ps NDC nobody g KS b i n path I Hi0 Hi Hd Hp Hder) as (nb' & Hb' & _ & _ & Hb0 & Hcl & Hdv & Hmb). rewrite Hb in Hb'. injection Hb' as <-.
      assert (I0 : Iv ps nobody (remove_edge g b i) KS) by (exact (iv_remove ps nobody g KS b i nb n I Hb Hi Hcl)). assert (Hcl0 : ~ Desc (remove_edge g b i) b i) by (intros K; exact (Hcl (desc_remove _ _ _ _ _ K))).
      assert (Hsame : forall x, get_node (remove_edge g b i) x = get_node g x) by reflexivity.
      assert (Hun : forall x, unlinked g x -> get_slot g x <> None -> unlinked g1 x).
      { intros x Hx Hs a Hin. destruct (rp_edges _ _ _ _ _ R) as (new & He & Hnew). rewrite He in Hin. apply in_app_iff in Hin as [Hin|Hin].
        - assert (K : exists d, In (d, x) m). { apply Hnew in Hin as [(d & c & _ & K & _)|[(d & K & _)|(_ & c & t0 & _ & K & _)]]; eauto. }
          destruct K as [d K]. destruct (rp_fresh _ _ _ _ _ R _ _ K) as [K' _]. unfold remove_edge in K'. cbn in K'. unfold get_slot in *. cbn in K'. congruence.
        - apply (Hx a). eapply remove_first_In. exact Hin. }
      exists (KS1 KS b i m). split; [eapply (rep_iv ps NDC (remove_edge g b i) KS b i nb n g1 m); eauto; rewrite Hp; discriminate|].
      split; [rewrite (rep_KS_old ps (remove_edge g b i) KS b i g1 m I0 R); [now rewrite Nat.eqb_refl|]; apply get_node_slot in Hi; unfold get_slot in *; cbn; congruence|].
      split; [rewrite (rep_KS_old ps (remove_edge g b i) KS b i g1 m I0 R); [destruct (Nat.eqb_spec 0 i); congruence|]; assert (K := v_root _ _ _ _ (proj1 (proj2 I0))); apply get_node_slot in K; congruence|].
      split; [apply (rep_oldn _ _ _ _ _ R); exact Hi|]. split; [apply Hun; [exact Hno|apply get_node_slot in Hi; congruence]|].
      split; [intros x Hx (nx & K1 & K2) Hu; split; [exists nx; split; [apply (rep_oldn _ _ _ _ _ R); exact K1|exact K2]|]; apply Hun; [exact Hu|apply get_node_slot in K1; congruence]|].
      split; [exists m; auto|]. intros p Kp. assert (Hsi : get_slot g i <> None) by (apply get_node_slot in Hi; congruence).
      assert (Hold : exists t, In (p, i, t) (g_edges (remove_edge g b i)) /\ is_child t = true).
      { apply ckids_In in Kp as (t & Kp & Kt). exists t. split; [|exact Kt]. destruct (rp_edges _ _ _ _ _ R) as (new & He & Hnew). rewrite He in Kp. apply in_app_iff in Kp as [Kp|Kp]; [exfalso|exact Kp].
        assert (K : exists d, In (d, i) m). { apply Hnew in Kp as [(d & c & _ & K & _)|[(d & K & _)|(_ & c & t0 & _ & K & _)]]; eauto. }
        destruct K as [d K]. destruct (rp_fresh _ _ _ _ _ R _ _ K) as [K' _]. apply Hsi. exact K'. }
      destruct Hold as (t & Kp1 & Kt). assert (Kg : Kid g p i) by (apply ckids_In; exists t; split; [eapply remove_first_In; exact Kp1|exact Kt]). split; [exact Kg|].
      assert (Hpi : p <> i). { intros ->. apply ckids_In in Kg as (u & Kg & _). apply (wf_acyclic _ (proj1 I) i i); [exists u; exact Kg|apply rt_refl]. }
      rewrite (rep_KS_old ps (remove_edge g b i) KS b i g1 m I0 R); [destruct (Nat.eqb_spec p i); congruence|]. apply (wf_edge _ (proj1 I0) _ _ _ Kp1).
    - cbn in HP. subst g1. exists KS. split; [eapply iv_mono; [|exact I]; intros x []|]. rewrite app_nil_r. split; [reflexivity|]. split; [reflexivity|]. split; [exact Hi|]. split; [exact Hno|].
      split; [intros x _ H1 H2; auto|]. split; [split; reflexivity|auto].
  Qed.

  (** the node is marked as processed *)
  Lemma iv_mark (W W' : nat -> Prop) g KS g' i n n' cs : Iv ps W g KS -> WF g' -> i <> 0%nat -> get_node g i = Some n -> n_done n = false -> unlinked g i ->
    n_level n' = n_level n -> n_name n' = n_name n -> n_done n' = true -> n_parsed n' = n_parsed n \/ n_level n = LEnum ->
    (forall j, get_slot g' j = if Nat.eqb i j then Some (NElem n') else get_slot g j) -> g_edges g' = set_resolved (g_edges g) i cs -> (forall c, In c cs -> In c (ckids (g_edges g) i)) ->
    (forall x, x <> i -> W x -> W' x) -> (forall p, Kid g p i -> Fam ps W' g' KS (KS p) (n_parsed n) [i]) -> NodeOk ps W' KS i n' -> Iv ps W' g' KS.
  Proof.
    intros I Wf' Hi0 Hi Hd Hno Hlv Hnm Hdn Hpa Hs He Hcs HW Hfam Hni.
    destruct (set_resolved_facts i cs (g_edges g)) as (C1 & C2); [intros c t Hc Hin; eapply child_edges; eauto|]. rewrite <- He in C1, C2.
    assert (Hnf : forall x, ~ fresh (fun _ => []) x) by (intros x (p & [])).
    apply (fin_iv ps W W' g g' KS KS i n n' (fun _ => [])); auto.
    - apply get_node_slot. now rewrite Hs, Nat.eqb_refl.
    - intros x Hx _. rewrite Hs. destruct (Nat.eqb_spec i x); congruence.
    - intros j Hj. destruct (Hnf _ Hj).
    - intros j Hj. destruct (Hnf _ Hj).
    - intros p. constructor.
    - intros x _. rewrite C1, app_nil_r. reflexivity.
    - intros j Hj. destruct (Hnf _ Hj).
    - intros a b t H1 H2. now apply C2 in H1.
    - intros a b t H1 H2. now apply C2.
  Qed.

  (** and its instances are added below its parents *)
  Lemma iv_instances (W : nat -> Prop) g KS gu g' i n n' cs (xs : list inst) vs : Iv ps W g KS -> Iv ps (only i) gu KS -> WF g' -> i <> 0%nat -> get_node g i = Some n -> n_done n = false -> unlinked g i ->
    n_level n' = n_level n -> n_name n' = n_name n -> n_done n' = true -> n_parsed n' = n_parsed n -> n_tmpl n' = true ->
    (forall j, get_slot gu j = if Nat.eqb i j then Some (NElem n') else get_slot g j) -> g_edges gu = set_resolved (g_edges g) i cs -> (forall c, In c cs -> In c (ckids (g_edges g) i)) ->
    (forall x, x <> i -> ~ W x) ->
    map (fun x => (i_par x, i_val x)) xs = list_prod (get_element_parents gu i) vs -> NoDup (map i_idx xs) ->
    (forall x, In x xs -> get_slot gu (i_idx x) = None /\ get_slot g' (i_idx x) = Some (NElem (inst_node n (i_val x)))) ->
    (forall j, ~ In j (map i_idx xs) -> get_slot g' j = get_slot gu j) ->
    g_edges g' = rev (map (fun jc => (fst jc, snd jc, CHILD_RESOLVED)) (list_prod (map i_idx xs) (get_element_childrens gu i))) ++ rev (map (fun x => (i_par x, i_idx x, CHILD_RESOLVED)) xs) ++ g_edges gu ->
    (exists tv, n_processed n' = Some tv /\ (forall p, Kid g p i -> sy_El ps (KS p) (n_parsed n) (KS i) vs (Some tv)) /\ exists sc, sy_El ps sc (n_parsed n) (KS i) vs (Some tv)) -> NodeOk ps nobody KS i n' ->
    (forall v, In v vs -> Bare v /\ kind_level v = n_level n) ->
    exists KS', Iv ps nobody g' KS' /\ KS' 0%nat = KS 0%nat /\ (forall j, In j (map i_idx xs) -> KS' j = KS i) /\ (forall x, ~ In x (map i_idx xs) -> KS' x = KS x).
  Proof.
    intros I Iu Wf' Hi0 Hi Hd Hno Hlv Hnm Hdn Hpa Htm Hsu Heu Hcs HW Hxs Hnd Hx Ho He (tv & Htv & HE & sc & HEs) Hni Hbare.
    destruct (set_resolved_facts i cs (g_edges g)) as (C1 & C2); [intros c t Hc Hin; exact (child_edges W g KS i n c t I Hi (Hcs _ Hc) Hin)|]. rewrite <- Heu in C1, C2.
    assert (Eu := proj2 (proj2 Iu)). assert (Vu := proj1 (proj2 Iu)).
    assert (Hgi : get_slot g i <> None) by (apply get_node_slot in Hi; congruence).
    assert (Hui : get_slot gu i = Some (NElem n')) by (now rewrite Hsu, Nat.eqb_refl).
    assert (Hus : forall j, get_slot gu j = None <-> get_slot g j = None). { intros j. rewrite Hsu. destruct (Nat.eqb_spec i j) as [<-|]; [|tauto]. split; intros K; congruence. }
    set (js := fun p => map i_idx (filter (fun x => Nat.eqb (i_par x) p) xs)).
    assert (Hfresh : forall j, fresh js j <-> In j (map i_idx xs)).
    { intros j. unfold fresh, js. split.
      - intros (p & K). apply in_map_iff in K as (x & <- & K). apply filter_In in K as [K _]. now apply in_map.
      - intros K. apply in_map_iff in K as (x & <- & K). exists (i_par x). apply in_map. apply filter_In. split; [exact K|apply Nat.eqb_refl]. }
    set (KS' := fun x => if in_dec Nat.eq_dec x (map i_idx xs) then KS i else KS x).
    assert (HKSf : forall j, fresh js j -> KS' j = KS i). { intros j K. apply Hfresh in K. unfold KS'. destruct (in_dec _ _ _); [reflexivity|contradiction]. }
    assert (HKSo : forall j, ~ fresh js j -> KS' j = KS j). { intros j K. rewrite Hfresh in K. unfold KS'. destruct (in_dec _ _ _); [contradiction|reflexivity]. }
    assert (Hnew : forall j, fresh js j -> get_slot g j = None). { intros j K. apply Hfresh, in_map_iff in K as (x & <- & K). apply Hus. now apply Hx. }
    assert (Hif : ~ fresh js i) by (intros K; apply Hnew in K; contradiction).
    assert (Hpar : forall p, In p (get_element_parents gu i) <-> In i (ckids (g_edges g) p)) by (intros p; rewrite (parents_ckids _ _ _ Eu), C1; tauto).
    assert (Hpnd : NoDup (get_element_parents gu i)) by (apply element_parents_NoDup; [exact Eu|apply (v_nd _ _ _ _ Vu)]).
    assert (Hch : get_element_childrens gu i = ckids (g_edges g) i) by (rewrite (children_ckids _ _ Eu); apply C1).
    assert (Hjs : forall p, ~ In i (ckids (g_edges g) p) -> js p = []).
    { intros p K. unfold js. destruct (filter _ xs) as [|x l] eqn:Ef; [reflexivity|]. exfalso. apply K, Hpar. assert (Kx : In x (filter (fun x => Nat.eqb (i_par x) p) xs)) by (rewrite Ef; now left).
      apply filter_In in Kx as [K1 K2]. apply Nat.eqb_eq in K2. subst p. apply (in_map (fun x => (i_par x, i_val x))) in K1. rewrite Hxs in K1. apply in_prod_iff in K1. tauto. }
    assert (Hval : forall p, In i (ckids (g_edges g) p) -> map i_val (filter (fun x => Nat.eqb (i_par x) p) xs) = vs).
    { intros p K. apply Hpar in K. assert (L := filter_prod p _ vs Hpnd K). rewrite <- Hxs, filter_map_com in L. cbn in L. apply (f_equal (map snd)) in L. rewrite !map_map in L. cbn in L. now rewrite map_id in L. }
    assert (HnE : ~ is_evc (n_parsed n)).
    { destruct Hni as (_ & _ & _ & K). destruct (K Hdn) as [(e0 & e' & K1 & _ & _ & _ & K2 & _)|[K1 _]]; [congruence|]. rewrite Hpa in K1. exact K1. }
    assert (Hin_vs : forall x, In x xs -> In (i_val x) vs). { intros x K. apply (in_map (fun x => (i_par x, i_val x))) in K. rewrite Hxs in K. apply in_prod_iff in K. tauto. }
    assert (Hlvn : n_level n = level_of (n_parsed n) /\ Declared ps (n_parsed n)) by (destruct (v_node _ _ _ _ (proj1 (proj2 I)) _ _ Hi0 Hi) as (K1 & K2 & _); auto).
    exists KS'. split.
    2: { split; [|split; [intros j K; apply HKSf, Hfresh, K|intros j K; apply HKSo; now rewrite Hfresh]]. apply HKSo. intros K. apply Hnew in K. assert (R := v_root _ _ _ _ (proj1 (proj2 I))). apply get_node_slot in R. congruence. }
    apply (fin_iv ps W nobody g g' KS KS' i n n' js); auto.
    - apply get_node_slot. rewrite Ho; [exact Hui|]. now rewrite <- Hfresh.
    - intros x K1 K2. rewrite Ho by (now rewrite <- Hfresh). rewrite Hsu. destruct (Nat.eqb_spec i x); congruence.
    - intros j K. split; [auto|]. assert (K' := HKSf _ K). apply Hfresh, in_map_iff in K as (x & <- & K). destruct (Hx _ K) as [_ K2]. exists (inst_node n (i_val x)). split; [now apply get_node_slot|]. split; [reflexivity|].
      split; [reflexivity|]. split; [exact (proj1 Hlvn)|]. split; [exact (proj2 Hlvn)|]. split; [discriminate|]. intros _. right. split; [exact HnE|]. exists sc, vs, (Some tv), (i_val x). rewrite K'. cbn [inst_node n_parsed n_processed n_tmpl n_name n_level].
      destruct (Hbare _ (Hin_vs _ K)). auto 8.
    - intros p. unfold js. clear - Hnd. induction xs as [|x xs IH]; [constructor|]. cbn in Hnd. inversion Hnd as [|? ? K1 K2]; subst. cbn. destruct (Nat.eqb (i_par x) p); [|auto]. cbn. constructor; [|auto].
      intros K. apply K1. apply in_map_iff in K as (y & <- & K). apply filter_In in K as [K _]. now apply in_map.
    - intros x K. rewrite He, !ckids_app. rewrite (ckids_perm _ _ x (Permutation_sym (Permutation_rev _))). rewrite ckids_star_other.
      2: { intros [j c] K2 K3. cbn in K3. subst j. apply in_prod_iff in K2 as [K2 _]. apply Hfresh in K2. apply Hnew in K2. contradiction. }
      cbn [app]. rewrite (ckids_perm _ _ x (Permutation_sym (Permutation_rev _))). rewrite C1. rewrite Permutation_app_comm. apply Permutation_app_head. unfold js, ckids. rewrite filter_map_com, map_map. reflexivity.
    - intros j K. apply Hfresh in K. rewrite He, !ckids_app. rewrite (ckids_perm _ _ j (Permutation_sym (Permutation_rev _))). rewrite Hch, ckids_star by auto.
      assert (Kn : get_slot g j = None) by (apply Hnew; now apply Hfresh).
      rewrite (ckids_none (rev _)), (ckids_none (g_edges gu)); [now rewrite app_nil_r| |].
      + intros c t Kin. destruct (wf_edge _ (proj1 Iu) _ _ _ Kin) as [K1 _]. rewrite Hus in K1. contradiction.
      + intros c t Kin. apply in_rev, in_map_iff in Kin as (x & Kx & Kin). injection Kx as K1 _ _. exfalso. apply (in_map (fun x => (i_par x, i_val x))) in Kin. rewrite Hxs in Kin. apply in_prod_iff in Kin as [Kin _].
        apply Hpar, ckids_In in Kin as (u & Kin & _). destruct (wf_edge _ (proj1 I) _ _ _ Kin) as [K2 _]. congruence.
    - intros p K. eapply F_many with (n := n') (tv := tv) (vs := vs); auto.
      + apply get_node_slot. rewrite Ho; [exact Hui|]. now rewrite <- Hfresh.
      + rewrite (HKSo i Hif). rewrite (HKSo p); [apply HE, K|]. intros Kf. apply Hnew in Kf. apply ckids_In in K as (u & K & _). destruct (wf_edge _ (proj1 I) _ _ _ K). contradiction.
      + rewrite <- (Hval _ K). unfold js. assert (Hsub : forall x, In x (filter (fun x => Nat.eqb (i_par x) p) xs) -> In x xs) by (intros x K1; apply filter_In in K1; tauto).
        revert Hsub. generalize (filter (fun x => Nat.eqb (i_par x) p) xs). intros l. induction l as [|x l IH]; intros Hsub; cbn; constructor.
        * assert (K1 := Hsub x (or_introl eq_refl)). exists (inst_node n (i_val x)). destruct (Hx _ K1) as [_ K2]. split; [now apply get_node_slot|]. repeat split.
          rewrite (HKSo _ Hif). apply HKSf. apply Hfresh. now apply in_map.
        * apply IH. intros y K1. apply Hsub. now right.
    - destruct Hni as (K1 & K2 & K3 & K4). split; [exact K1|]. split; [exact K2|]. unfold UndoneOk, EvcDone, ElemDone in *. rewrite (HKSo _ Hif). auto.
    - intros a b t H1 H2. rewrite He in H1. rewrite !in_app_iff in H1. destruct H1 as [H1|[H1|H1]].
      + apply in_rev, in_map_iff in H1 as (jc & K & _). injection K as _ _ <-. discriminate.
      + apply in_rev, in_map_iff in H1 as (x & K & _). injection K as _ _ <-. discriminate.
      + now apply C2 in H1.
    - intros a b t H1 H2. rewrite He, !in_app_iff. right. right. now apply C2.
  Qed.

  (** values of the base *)
  Lemma base_value g KS i n base bv : Iv ps nobody g KS -> i <> 0%nat -> get_node g i = Some n -> n_done n = false -> (forall e, n_parsed n <> PaEvc e) -> BaseOf g i n base bv ->
    same_kind (n_parsed n) bv /\ KS i = kids_of (n_parsed n) /\
    (derived_of (n_parsed n) = None /\ base = None /\ bv = None \/
     exists path b nb v sc vsb tvb, derived_of (n_parsed n) = Some path /\ base = Some b /\ bv = Some v /\ In (b, i, DERIVE) (g_edges g) /\ get_node g b = Some nb /\ b <> 0%nat /\ n_done nb = true /\
       level_of (n_parsed nb) = level_of (n_parsed n) /\ Declared ps (n_parsed nb) /\ ~ is_evc (n_parsed nb) /\ n_processed nb = Some v /\ processed_name v = path_end path /\
       sy_El ps sc (n_parsed nb) (KS b) vsb tvb /\ (In v vsb \/ tvb = Some v)).
  Proof.
    intros I Hi0 Hi Hd Hev HB. destruct I as (Wf & V & E). destruct (v_node _ _ _ _ V _ _ Hi0 Hi) as (Elv & HD & HU & _). destruct (HU Hd) as (_ & _ & _ & [[]|Ek]).
    destruct HB as [(Hp & -> & ->)|(path & b & nb & Hp & -> & Hbe & Hb & Hl & Ebv & Hnone)].
    - split; [destruct (n_parsed n) as [|?|[?|? ?]|?|?]; exact Logic.I|]. split; [exact Ek|]. left. auto.
    - assert (I : Iv ps nobody g KS) by (split; auto). assert (Hder := base_edge _ _ _ Hbe). destruct (derived_edge ps NDC nobody g KS b i n path I Hi0 Hi Hd Hp Hder) as (nb' & Hb' & _ & Hnm & Hb0 & Hcl & Hdv).
      rewrite Hb in Hb'. injection Hb' as <-. destruct (v_node _ _ _ _ V _ _ Hb0 Hb) as (Elb & HDb & HUb & HDoneb).
      assert (Hnev : ~ is_evc (n_parsed nb)).
      { intros K. rewrite Elb in Hl. rewrite Elv in Hl. destruct (n_parsed nb) as [|?|[?|? ?]|?|?]; try contradiction. destruct (n_parsed n) as [|?|[?|? ?]|?|?] eqn:Ep; cbn in Hl; try discriminate. exact (Hev _ eq_refl). }
      destruct (n_done nb) eqn:Hdb.
      + destruct (HDoneb eq_refl) as [(e0 & e' & K & _)|[_ (sc & vsb & tvb & v & K1 & K2 & K3 & K4 & K5 & K6)]]; [rewrite K in Hnev; destruct Hnev; exact Logic.I|].
        rewrite Ebv, K2. split; [|split; [exact Ek|]].
        * rewrite Hl, Elv in K6. destruct (n_parsed n) as [|?|[?|? ?]|?|?], v as [?|[?|? ?]|?]; cbn in K6; try discriminate; exact Logic.I.
        * right. exists path, b, nb, v, sc, vsb, tvb. conj; auto; [congruence|congruence|]. destruct (n_tmpl nb); auto.
      + destruct (HUb eq_refl) as (K1 & _). rewrite K1 in Ebv. destruct (Hnone Ebv) as [e He]. destruct (Hev _ He).
  Qed.
  (** the elaboration of the node that is processed next *)
  Definition Elabs (g : graph) (KS : nat -> list parsed) (i : nat) : Prop := forall n base bv vs tv, get_node g i = Some n -> (forall e, n_parsed n <> PaEvc e) -> BaseOf g i n base bv -> Described (n_parsed n) bv vs tv ->
    (forall p, Kid g p i -> sy_El ps (KS p) (n_parsed n) (KS i ++ match base with Some b => KS b | None => [] end) vs tv) /\
    exists sc, sy_El ps sc (n_parsed n) (KS i ++ match base with Some b => KS b | None => [] end) vs tv.
  Lemma created_facts p bv ws ws' (isd : bool) names displays v vs : same_kind p bv -> node_dimension p bv = (ws, Ok (isd, names, displays)) -> create_elements 0 names displays p bv = (ws', Ok (v :: vs)) ->
    forall x, In x (v :: vs) -> Bare x /\ kind_level x = level_of p.
  Proof. intros Hk _ H x Hx. apply In_nth_error in Hx as [k Hx]. destruct (create_elements_attr _ _ Hk _ _ _ _ _ H _ _ Hx) as (_ & _ & _ & K1 & K2). auto. Qed.
  Lemma declared_parsed n e : (forall x, n_parsed n <> PaEvc x) -> n_parsed n = e -> e <> PaDev -> declared_name e = Some (parsed_name e).
  Proof. intros H <- H2. destruct (n_parsed n); try reflexivity; [congruence|destruct (H e); reflexivity]. Qed.
  Lemma stays_trans g1 g2 g3 i : Stays g1 g2 i -> Stays g2 g3 i -> Stays g1 g3 i.
  Proof. intros H1 H2 x Hx K1 K2. destruct (H1 x Hx K1 K2). apply H2; auto. Qed.
  Lemma stays_edges g1 g2 i : (forall x nx, x <> i -> get_node g1 x = Some nx -> get_node g2 x = Some nx) -> (forall a x, In (a, x, PLACEHOLDER) (g_edges g2) -> In (a, x, PLACEHOLDER) (g_edges g1)) -> Stays g1 g2 i.
  Proof. intros H1 H2 x Hx (nx & K1 & K2) K3. split; [exists nx; split; auto|]. intros a K. apply (K3 a). auto. Qed.

  Lemma iv_update_node g KS i n base bv v (tmpl : bool) ws g' vs : Iv ps nobody g KS -> Elabs g KS i -> i <> 0%nat -> get_node g i = Some n -> n_done n = false -> unlinked g i -> (forall e, n_parsed n <> PaEvc e) -> n_parsed n <> PaDev ->
    BaseOf g i n base bv -> Described (n_parsed n) bv vs (if tmpl then Some v else None) -> (tmpl = false -> vs = [v]) -> processed_name v = parsed_name (n_parsed n) -> Bare v -> kind_level v = n_level n ->
    update_node g i base v tmpl = (ws, Ok g') ->
    exists g1 KS1 n' cs, Iv ps (only i) g1 KS1 /\ KS1 0%nat = KS 0%nat /\ Iv ps (if tmpl then only i else nobody) g' KS1 /\ Stays g g' i /\
      get_node g1 i = Some n /\ unlinked g1 i /\ n_level n' = n_level n /\ n_name n' = n_name n /\ n_done n' = true /\ n_parsed n' = n_parsed n /\ n_tmpl n' = tmpl /\ n_processed n' = Some v /\
      (forall j, get_slot g' j = if Nat.eqb i j then Some (NElem n') else get_slot g1 j) /\ g_edges g' = set_resolved (g_edges g1) i cs /\ (forall c, In c cs -> In c (ckids (g_edges g1) i)) /\
      (forall p, Kid g1 p i -> sy_El ps (KS1 p) (n_parsed n) (KS1 i) vs (if tmpl then Some v else None)) /\ (exists sc, sy_El ps sc (n_parsed n) (KS1 i) vs (if tmpl then Some v else None)) /\ NodeOk ps nobody KS1 i n' /\ Prep g KS i base g1 KS1.
  Proof.
    intros I HEl Hi0 Hi Hd Hno Hev Hpd HB HDes Hvs Hname Hbare Hkl H.
    destruct (HEl _ _ _ _ _ Hi Hev HB HDes) as [HE0 (sc & HEs)].
    destruct (update_node_spec _ _ _ _ _ _ _ _ (proj1 I) Hi H) as (g1 & HP & Hnp & Wf' & Hs & He & _). cbn zeta in *.
    destruct (v_node _ _ _ _ (proj1 (proj2 I)) _ _ Hi0 Hi) as (Elv & HD & HU & _). destruct (HU Hd) as (_ & Htm & Hnm & _).
    destruct (iv_prepared _ _ _ _ _ _ _ I Hi0 Hi Hd Hno HB HP) as (KS1 & I1 & Ek & Ek0 & Hi1 & Hno1 & Hst & Hprep & Hpar).
    set (n' := mk_node (n_name n) (n_level n) true (n_parsed n) (Some v) (tmpl || n_tmpl n)) in *.
    set (cs := get_element_childrens (set_node g1 i n') i) in *.
    assert (Hcs : forall c, In c cs -> In c (ckids (g_edges g1) i)).
    { intros c Hc. apply element_childrens_In in Hc as (t & K1 & K2 & _). apply ckids_In. exists t. split; [|exact K2]. unfold set_node in K1. cbn in K1. exact K1. }
    assert (Htm' : n_tmpl n' = tmpl) by (cbn; rewrite Htm; apply orb_false_r).
    rewrite <- Ek in HE0, HEs. assert (HE : forall p, Kid g1 p i -> sy_El ps (KS1 p) (n_parsed n) (KS1 i) vs (if tmpl then Some v else None)) by (intros p Kp; destruct (Hpar _ Kp) as [Kg ->]; auto).
    assert (Hni : NodeOk ps nobody KS1 i n').
    { split; [exact Elv|]. split; [exact HD|]. split; [discriminate|]. intros _. right. split; [cbn; intros K; destruct (n_parsed n); try contradiction; exact (Hev _ eq_refl)|].
      exists sc, vs, (if tmpl then Some v else None), v. split; [exact HEs|]. split; [reflexivity|]. split; [rewrite Htm'; destruct tmpl; [reflexivity|]; rewrite (Hvs eq_refl); now left|].
      split; [cbn; rewrite Hnm, Hname; eapply declared_parsed; eauto|]. auto. }
    assert (Hgi : get_node g' i = Some n') by (apply get_node_slot; now rewrite Hs, Nat.eqb_refl).
    exists g1, KS1, n', cs. split; [exact I1|]. split; [exact Ek0|]. split; [|split].
    - eapply (iv_mark (only i) _ g1 KS1 g' i n n' cs); eauto.
      + intros x Hx K. destruct (Hx K).
      + intros p Kp. destruct tmpl.
        * eapply F_work; [reflexivity|exact Hgi|reflexivity].
        * eapply F_single with (v := v); [exact Hgi|reflexivity|exact Htm'|reflexivity|reflexivity|]. rewrite <- (Hvs eq_refl). exact (HE _ Kp).
      + destruct tmpl; [|exact Hni]. destruct Hni as (K1 & K2 & K3 & K4). split; [exact K1|]. split; [exact K2|]. split; [discriminate|exact K4].
    - eapply stays_trans; [exact Hst|]. apply stays_edges.
      + intros x nx Hx K. rewrite <- K. apply get_node_same. rewrite Hs. destruct (Nat.eqb_spec i x); congruence.
      + intros a x K. destruct (set_resolved_facts i cs (g_edges g1)) as (_ & C2); [intros c t Hc Hin; exact (child_edges _ _ _ _ _ _ _ I1 Hi1 (Hcs _ Hc) Hin)|].
        rewrite He in K. now apply C2 in K.
    - conj; auto. exists sc. exact HEs.
  Qed.

  Lemma iv_evc g KS i n base bv e ws g' : Iv ps nobody g KS -> i <> 0%nat -> get_node g i = Some n -> n_done n = false -> unlinked g i -> n_parsed n = PaEvc e ->
    BaseOf g i n base bv -> process_evc_node g i base = (ws, Ok g') ->
    Iv ps nobody g' KS /\ Stays g g' i /\ (forall x, x <> i -> get_node g' x = get_node g x) /\ (forall x, ckids (g_edges g') x = ckids (g_edges g) x) /\
    (g_edges g' = g_edges g \/ exists b, g_edges g' = remove_first b i (g_edges g)).
  Proof.
    intros I Hi0 Hi Hd Hno Hp HB H. destruct (v_node _ _ _ _ (proj1 (proj2 I)) _ _ Hi0 Hi) as (Elv & HD & HU & _). destruct (HU Hd) as (Hnp & Htm & Hnm & [[]|Ek]).
    rewrite Hp in Elv, HD, Hnm, Ek. cbn in Elv, HD, Hnm, Ek.
    assert (Hfin : forall g0 n' e', Iv ps nobody g0 KS -> get_node g0 i = Some n -> unlinked g0 i -> WF g' -> n_level n' = n_level n -> n_name n' = n_name n -> n_done n' = true -> n_processed n' = n_processed n -> n_tmpl n' = n_tmpl n ->
      n_parsed n' = PaEvc e' -> EffEvc ps e e' -> DeclaredEvc ps e' ->
      (forall j, get_slot g' j = if Nat.eqb i j then Some (NElem n') else get_slot g0 j) -> g_edges g' = g_edges g0 -> Iv ps nobody g' KS).
    { intros g0 n' e' I0 Hi' Hno' Wf' H1 H2 H3 H4 H5 H6 H7 H8 H9 H10. eapply (iv_mark nobody nobody g0 KS g' i n n' []); eauto.
      - intros c [].
      - intros p _. rewrite Hp. eapply F_evc; [apply get_node_slot; now rewrite H9, Nat.eqb_refl|exact H3|exact H6|exact H7].
      - split; [rewrite H6, H1; exact Elv|]. split; [rewrite H6; exact H8|]. split; [congruence|]. intros _. left. exists e, e'. rewrite H2, H4, H5. auto 8. }
    assert (Hpers : forall g0 n', (forall x, get_node g0 x = get_node g x) -> (forall a x, In (a, x, PLACEHOLDER) (g_edges g0) -> In (a, x, PLACEHOLDER) (g_edges g)) ->
      (forall j, get_slot g' j = if Nat.eqb i j then Some (NElem n') else get_slot g0 j) -> g_edges g' = g_edges g0 -> Stays g g' i).
    { intros g0 n' K1 K2 K3 K4. apply stays_edges.
      - intros x nx Hx K. rewrite <- K, <- K1. apply get_node_same. rewrite K3. destruct (Nat.eqb_spec i x); congruence.
      - intros a x K. rewrite K4 in K. auto. }
    destruct (process_evc_spec _ _ _ _ _ _ (proj1 I) Hi H) as [(-> & Wf' & Eg)|(b & nb & eb & g1 & -> & Hb & Hpb & Hrest)].
    - destruct HB as [(Hder & _)|(path & b & nb & _ & K & _)]; [|discriminate]. rewrite Hp in Hder. cbn in Hder.
      assert (Hsl : forall j, get_slot g' j = if Nat.eqb i j then Some (NElem (mk_node (n_name n) (n_level n) true (n_parsed n) (n_processed n) (n_tmpl n))) else get_slot g j) by (intros j; rewrite Eg; exact (set_node_slot _ _ _ _ Hi j)).
      split; [|split; [|split; [|split]]].
      + eapply (Hfin g); [exact I|exact Hi|exact Hno|exact Wf'| | | | | | | | |exact Hsl|rewrite Eg; reflexivity]; try reflexivity; [exact Hp|now apply EffEvc_own|exact HD].
      + eapply (Hpers g); [reflexivity|auto|exact Hsl|rewrite Eg; reflexivity].
      + intros x Hx. apply get_node_same. rewrite Hsl. destruct (Nat.eqb_spec i x); congruence.
      + rewrite Eg. reflexivity.
      + left. rewrite Eg. reflexivity.
    - cbn zeta in Hrest. destruct Hrest as ((m & R) & Wf' & Hi1 & Eg). destruct HB as [(_ & K & _)|(path & b' & nb' & Hder & K & Hbe & Hb' & Hl & _)]; [discriminate|]. injection K as <-.
      rewrite Hb in Hb'. injection Hb' as <-. assert (Hde := base_edge _ _ _ Hbe). destruct (derived_edge ps NDC nobody g KS b i n path I Hi0 Hi Hd Hder Hde) as (nb' & Hb' & _ & Hnb & Hb0 & Hcl & _).
      rewrite Hb in Hb'. injection Hb' as <-.
      set (n1 := mk_node (n_name n) (n_level n) (n_done n) (n_parsed nb) (n_processed n) (n_tmpl n)) in *. set (g0 := remove_edge (set_node g i n1) b i) in *.
      assert (Hbi : b <> i). { intros ->. apply (wf_acyclic _ (proj1 I) i i); [exists DERIVE; exact Hde|apply rt_refl]. }
      assert (V := proj1 (proj2 I)). assert (E := proj2 (proj2 I)).
      destruct (v_node _ _ _ _ V _ _ Hb0 Hb) as (Elb & HDb & HUb & HDoneb).
      assert (HKb : KS b = []).
      { destruct (n_done nb) eqn:Hdb; [destruct (HDoneb eq_refl) as [(? & ? & _ & _ & _ & _ & _ & K & _)|[K _]]; [exact K|rewrite Hpb in K; destruct K; exact Logic.I]|].
        destruct (HUb eq_refl) as (_ & _ & _ & [[]|K]). rewrite K, Hpb. reflexivity. }
      assert (Hcb : ckids (g_edges g) b = []).
      { destruct (v_kids _ _ _ _ V b (proj2 (is_elem_node _ _) (ex_intro _ _ Hb))) as (fams & K1 & K2). rewrite HKb in K2. inversion K2; subst. cbn in K1. now apply Permutation_sym, Permutation_nil in K1. }
      assert (Hleaf : forall c t, In (b, c, t) (g_edges g) -> t = DERIVE).
      { intros c t K. destruct (is_child t) eqn:Et.
        - assert (K2 : In c (ckids (g_edges g) b)) by (apply ckids_In; eauto). rewrite Hcb in K2. destruct K2.
        - destruct t; try discriminate; [|reflexivity]. destruct (w_ph _ E _ _ K) as [(path' & x & K2 & _)|(K2 & path' & x & K3 & K4)]; [apply get_node_slot in Hb; congruence|].
          assert (K5 := w_link _ E _ _ _ K2 K K4). rewrite Hcb in K5. destruct K5. }
      assert (Hm : m = []).
      { destruct m as [|[d j] m]; [reflexivity|]. exfalso. assert (K : Desc g0 b d) by (apply (rp_dom _ _ _ _ _ R); now left). apply clos_trans_t1n in K.
        assert (K2 : exists c t, In (b, c, t) (g_edges g0) /\ t <> DERIVE) by (destruct K as [? (t & K)|? ? (t & K)]; eauto). destruct K2 as (c & t & K2 & K3). apply remove_first_In in K2. apply K3. eapply Hleaf. exact K2. }
      subst m. assert (Hs0 : forall j, get_slot g0 j = if Nat.eqb i j then Some (NElem n1) else get_slot g j) by (intros j; exact (set_node_slot _ _ _ _ Hi j)).
      assert (Hs1 : forall j, get_slot g1 j = get_slot g0 j).
      { intros j. destruct (get_slot g0 j) as [s|] eqn:Es; [apply (rp_keeps _ _ _ _ _ R); exact Es|]. destruct (get_slot g1 j) eqn:Es1; [|reflexivity]. destruct (rp_only _ _ _ _ _ R j) as [K|[]]; congruence. }
      assert (He1 : g_edges g1 = g_edges (remove_edge g b i)).
      { destruct (rp_perm _ _ _ _ _ R) as (new & K & K2). assert (K3 : attached g0 b i [] = []) by (unfold attached; clear; induction (out_edges g0 b) as [|e l IH]; [reflexivity|exact IH]).
        rewrite K3 in K2. cbn in K2. apply Permutation_sym, Permutation_nil in K2. subst new. rewrite K. reflexivity. }
      assert (I0 : Iv ps nobody (remove_edge g b i) KS) by (exact (iv_remove ps nobody g KS b i nb n I Hb Hi Hcl)).
      set (n2 := mk_node (n_name n) (n_level n) true (n_parsed nb) (n_processed n) (n_tmpl n)) in *.
      assert (Hsl : forall j, get_slot g' j = if Nat.eqb i j then Some (NElem n2) else get_slot (remove_edge g b i) j).
      { intros j. rewrite Eg, (set_node_slot _ _ _ _ Hi1), Hs1, Hs0. destruct (Nat.eqb i j); reflexivity. }
      assert (He' : g_edges g' = g_edges (remove_edge g b i)) by (rewrite Eg; exact He1).
      assert (Hsub : forall a x t, In (a, x, t) (g_edges (remove_edge g b i)) -> In (a, x, t) (g_edges g)) by (intros a x t; apply remove_first_In).
      split; [|split; [|split; [|split]]].
      + eapply (Hfin (remove_edge g b i) n2 eb); [exact I0|exact Hi| |exact Wf'| | | | | |exact Hpb| | |exact Hsl|exact He']; try reflexivity.
        * intros a K. apply (Hno a). now apply Hsub.
        * rewrite Hp in Hder. cbn in Hder.
          destruct (n_done nb) eqn:Hdb; [destruct (HDoneb eq_refl) as [(e0 & e' & L1 & L2 & L3 & L4 & _)|[K _]]; [|rewrite Hpb in K; destruct K; exact Logic.I]|].
          { rewrite Hpb in L1. injection L1 as <-. eapply (EffEvc_derived ps e path e0 eb); [exact Hder|exact L2|congruence|now right]. }
          destruct (HUb eq_refl) as (_ & _ & L3 & _). rewrite Hpb in L3, HDb. cbn in L3. eapply (EffEvc_derived ps e path eb eb); [exact Hder|exact HDb|congruence|now left].
        * rewrite Hpb in HDb. exact HDb.
      + eapply (Hpers (remove_edge g b i) n2); [reflexivity| |exact Hsl|exact He']. intros a x. apply Hsub.
      + intros x Hx. apply get_node_same. rewrite Hsl. destruct (Nat.eqb_spec i x); [congruence|reflexivity].
      + intros x. rewrite He'. apply ckids_remove. intros t Ht. rewrite (same_level_edges ps nobody g KS b i nb n t I Hb Hi Hcl Ht). reflexivity.
      + right. exists b. exact He'.
  Qed.

  (** ** Processing one node *)
  Theorem iv_process g KS i ws g' : Iv ps nobody g KS -> Elabs g KS i -> i <> 0%nat -> undone_at g i -> unlinked g i -> process_node g i = (ws, Ok g') ->
    exists KS', Iv ps nobody g' KS' /\ KS' 0%nat = KS 0%nat /\ Stays g g' i.
  Proof.
    intros I HEl Hi0 (n & Hi & Hd) Hno H. destruct (process_node_inv _ _ _ _ H) as (n0 & base & bv & Hi2 & Hpd & HB & Hor). rewrite Hi in Hi2. injection Hi2 as <-.
    destruct Hor as [(e & He & w & H1)|(Hev & w & H1)].
    - destruct (iv_evc _ _ _ _ _ _ _ _ _ I Hi0 Hi Hd Hno He HB H1) as (K1 & K2 & _). exists KS. auto.
    - destruct (process_dimable_inv _ _ _ _ _ _ _ H1) as (w0 & isd & names & displays & w' & v & vs & Hdim & Hcr & w'' & Hup).
      destruct (base_value _ _ _ _ _ _ I Hi0 Hi Hd Hev HB) as (Hk & _). assert (HDes := created_described _ _ _ _ _ _ _ _ _ Hk Hdim Hcr). assert (HF := created_facts _ _ _ _ _ _ _ _ _ Hk Hdim Hcr).
      destruct (v_node _ _ _ _ (proj1 (proj2 I)) _ _ Hi0 Hi) as (Elv & _).
      destruct (HF v (or_introl eq_refl)) as [Bv Kv]. destruct isd.
      + destruct (update_dim_node_spec _ _ _ _ _ _ _ _ (proj1 I) Hi Hup) as (gu & xs & (wu & Hu) & Wf' & Hkeep & _ & Hxs & Hnd & Hx & Ho & He).
        destruct (with_name_facts (parsed_name (n_parsed n)) v (n_parsed n) bv 0) as (N1 & _ & _ & _ & _ & N2 & N3 & _).
        set (tv := with_name (parsed_name (n_parsed n)) v) in *. assert (A1 : true = false -> map without_dim (v :: vs) = [tv]) by discriminate. assert (A2 : kind_level tv = n_level n) by congruence.
        destruct (iv_update_node g KS i n base bv tv true wu gu (map without_dim (v :: vs)) I HEl Hi0 Hi Hd Hno Hev Hpd HB HDes A1 N1 (N2 Bv) A2 Hu)
          as (g1 & KS1 & n' & cs & I1 & Ek0 & Iu & Hst & Hi1 & Hno1 & L1 & L2 & L3 & L4 & L5 & L6 & L7 & L8 & L9 & L10 & L11 & L12 & _).
        destruct (iv_instances (only i) g1 KS1 gu g' i n n' cs xs (map without_dim (v :: vs))) as (KS' & J1 & J2 & _); auto.
        * exists tv. auto.
        * intros y Hy. apply in_map_iff in Hy as (z & <- & Hz). destruct (HF z Hz) as [B1 B2]. destruct (without_dim_facts z (n_parsed n) bv 0) as (_ & _ & _ & _ & _ & M1 & M2 & _). split; [auto|congruence].
        * exists KS'. split; [exact J1|]. split; [congruence|]. eapply stays_trans; [exact Hst|]. apply stays_edges.
          { intros x nx _ K. apply get_node_slot. apply Hkeep. now apply get_node_slot. }
          intros a x K. rewrite He, !in_app_iff in K. destruct K as [K|[K|K]]; [| |exact K]; apply in_rev, in_map_iff in K as (y & K & _); discriminate K.
      + destruct HDes as [-> HDes]. assert (Hname : processed_name v = parsed_name (n_parsed n)) by (inversion HDes; subst; assumption).
        assert (A2 : kind_level v = n_level n) by congruence.
        destruct (iv_update_node g KS i n base bv v false w'' g' [v] I HEl Hi0 Hi Hd Hno Hev Hpd HB HDes (fun _ => eq_refl) Hname Bv A2 Hup) as (g1 & KS1 & n' & cs & I1 & Ek0 & Iu & Hst & _).
        exists KS1. auto.
  Qed.
End Process.
(** regardless of the siblings, there is nothing to show *)
Lemma weak_elabs (ps : list svd_periph) (NDC : forall a e, MayBeBase ps a -> level_of a = LCluster -> Inside a e -> ~ derived_cluster e) g KS i :
  Iv (loose ps) nobody g KS -> i <> 0%nat -> undone_at g i -> Elabs (loose ps) g KS i.
Proof.
  intros I Hi0 (n0 & Hi0' & Hd) n base bv vs tv Hi Hev HB HDes. rewrite Hi in Hi0'. injection Hi0' as <-.
  assert (G : Elabw ps (n_parsed n) (KS i ++ match base with Some b => KS b | None => [] end) vs tv); [|split; [intros p _|exists []]; exact G].
  destruct (base_value (loose ps) NDC g KS i n base bv I Hi0 Hi Hd Hev HB) as (_ & -> & [(H1 & -> & ->)|(path & b & nb & v & sc & vsb & tvb & H1 & -> & -> & _ & _ & _ & _ & H2 & H3 & _ & _ & H4 & H5 & H6)]).
  - rewrite app_nil_r. now apply Elabw_own.
  - eapply (Elabw_derived ps _ path (n_parsed nb) (KS b) vsb tvb v); auto.
Qed.
Theorem weak_process (ps : list svd_periph) (NDC : forall a e, MayBeBase ps a -> level_of a = LCluster -> Inside a e -> ~ derived_cluster e) g KS i ws g' :
  Iv (loose ps) nobody g KS -> i <> 0%nat -> undone_at g i -> unlinked g i -> process_node g i = (ws, Ok g') -> exists KS', Iv (loose ps) nobody g' KS' /\ KS' 0%nat = KS 0%nat /\ Stays g g' i.
Proof. intros I Hi0 Hu. apply (iv_process (loose ps) NDC); auto. now apply weak_elabs. Qed.
