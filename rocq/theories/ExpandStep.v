(** * ExpandStep: every step of the resolver keeps the invariant of ExpandInv. *)
From Coq Require Import Relations.
From Verif Require Import Base PyStr Types DimModel EnumModel ElemModel ResolveModel GraphFacts ReplicateFacts ResolveWF ResolveInv SpecDeclared SpecElem SpecSearch SearchFacts SpecExpand DescribeFacts PropsDim ExpandInv ExpandBuild.

Lemma ckids_filter (keep : edge -> bool) es i : (forall e, In e es -> is_child (e_typ e) = true -> keep e = true) -> ckids (filter keep es) i = ckids es i.
Proof.
  intros H. induction es as [|[[a b] t] es IH]; [reflexivity|]. cbn [filter]. rewrite ckids_cons. rewrite <- IH by (intros e He; apply H; now right).
  destruct (keep (a, b, t)) eqn:Ek; [rewrite ckids_cons; reflexivity|].
  destruct (is_child t) eqn:Et; [|reflexivity]. rewrite (H (a, b, t)) in Ek; [discriminate|now left|exact Et].
Qed.
Lemma remove_first_keep p c es e : In e es -> ~ (e_src e = p /\ e_dst e = c) -> In e (remove_first p c es).
Proof.
  induction es as [|x es IH]; intros H Hn; [destruct H|]. cbn. destruct (Nat.eqb (e_src x) p && Nat.eqb (e_dst x) c) eqn:E.
  - destruct H as [->|H]; [|exact H]. apply andb_true_iff in E as [E1 E2]. apply Nat.eqb_eq in E1, E2. tauto.
  - destruct H as [->|H]; [now left|right; auto].
Qed.
Lemma ckids_remove p c es i : (forall t, In (p, c, t) es -> is_child t = false) -> ckids (remove_first p c es) i = ckids es i.
Proof.
  induction es as [|[[a b] t] es IH]; intros H; [reflexivity|]. cbn [remove_first e_src e_dst fst snd]. rewrite ckids_cons.
  destruct (Nat.eqb_spec a p) as [->|]; cbn [andb]; [destruct (Nat.eqb_spec b c) as [->|]|].
  - rewrite (H t) by now left. reflexivity.
  - rewrite ckids_cons, IH; [reflexivity|]. intros u Hu. apply H. now right.
  - rewrite ckids_cons, IH; [reflexivity|]. intros u Hu. apply H. now right.
Qed.

Section Step.
  Context (ps : Sys).
  Definition Iv (W : nat -> Prop) (g : graph) (KS : nat -> list parsed) : Prop := WF g /\ NInv ps W g KS /\ EInv g.
  Definition nobody : nat -> Prop := fun _ => False.

  Lemma ph_not_elem g h path : get_slot g h = Some (NPh path) -> is_elem g h = false.
  Proof. intros H. unfold is_elem, get_node. now rewrite H. Qed.

  (** *** A placeholder is replaced by a derivation edge *)
  Lemma Leads_name g lv excl parts cands j n d : Leads g lv excl parts cands j -> get_node g j = Some n -> n_name n = Some (last parts d).
  Proof.
    induction 1 as [name cands j m H1 H2 H3 H4 H5|name rest cands i m j H1 H2 H3 H4 H5 HL IH]; intros Hn.
    - rewrite Hn in H3. injection H3 as <-. exact H4.
    - rewrite (IH Hn). destruct rest; [congruence|reflexivity].
  Qed.
  Lemma path_base g i lv path ws b : path_resolving g i lv path = (ws, Ok (Some b)) -> exists n, get_node g b = Some n /\ n_level n = lv /\ n_name n = Some (path_end path).
  Proof.
    intros H. assert (H' := path_resolving_node _ _ _ _ _ _ H). destruct H' as (_ & n & Hn & Hl). exists n. split; [exact Hn|]. split; [exact Hl|].
    apply path_resolving_spec in H. cbn in H. unfold path_end. destruct H as [[H _]|[_ [H _]]]; eapply Leads_name; eassumption.
  Qed.

  Lemma iv_resolve_ph W g KS h ws g' : Iv W g KS -> resolve_placeholder g h = (ws, Ok g') -> Iv W g' KS.
  Proof.
    intros (Wf & V & E) H. assert (Wf' := proj1 (resolve_ph_spec _ _ _ _ Wf H)).
    destruct (resolve_ph_inv _ _ _ _ H) as [->|(p & pn & c & n & path & b & Hp & Hpd & Hph & Hhc & Hh & Hc & Hb & Hr & Eg)]; [split; auto|].
    apply path_base in Hb as (nb & Hb & Hlb & Hnb).
    assert (Hhe := ph_not_elem _ _ _ Hh).
    assert (Hn : forall i, get_node g' i = get_node g i).
    { intros i. rewrite Eg. unfold get_node. change (get_slot (mk_graph _ _ _ _) i) with (get_slot (remove_placeholder g h) i). rewrite (remove_ph_slot _ _ _ Hh).
      destruct (Nat.eqb_spec h i) as [->|]; [now rewrite Hh|reflexivity]. }
    assert (Hs : forall i, i <> h -> get_slot g' i = get_slot g i).
    { intros i Hi. rewrite Eg. change (get_slot (mk_graph _ _ _ _) i) with (get_slot (remove_placeholder g h) i). rewrite (remove_ph_slot _ _ _ Hh). destruct (Nat.eqb_spec h i); congruence. }
    assert (He : g_edges g' = (b, c, DERIVE) :: filter (fun e => negb (Nat.eqb (e_src e) h) && negb (Nat.eqb (e_dst e) h)) (g_edges g)) by (rewrite Eg; reflexivity).
    assert (Hel : forall i, is_elem g' i = is_elem g i) by (intros i; unfold is_elem; now rewrite Hn).
    assert (Hin : forall a x t, In (a, x, t) (g_edges g') -> a = b /\ x = c /\ t = DERIVE \/ In (a, x, t) (g_edges g) /\ a <> h /\ x <> h).
    { intros a x t Hi. rewrite He in Hi. destruct Hi as [Hi|Hi]; [injection Hi as <- <- <-; auto|]. apply filter_In in Hi as [H1 H2]. cbn in H2. right. split; [exact H1|].
      apply andb_true_iff in H2 as [H2 H3]. destruct (Nat.eqb_spec a h), (Nat.eqb_spec x h); try discriminate. auto. }
    assert (Hin' : forall a x t, In (a, x, t) (g_edges g) -> a <> h -> x <> h -> In (a, x, t) (g_edges g')).
    { intros a x t Hi Ha Hx. rewrite He. right. apply filter_In. split; [exact Hi|]. cbn. destruct (Nat.eqb_spec a h), (Nat.eqb_spec x h); try congruence. reflexivity. }
    assert (Hck : forall i, ckids (g_edges g') i = ckids (g_edges g) i).
    { intros i. rewrite He, ckids_cons. cbn [is_child andb]. apply ckids_filter. intros [[a x] t] Hi Ht. cbn in *. destruct (w_child _ E _ _ _ Hi Ht).
      destruct (Nat.eqb_spec a h), (Nat.eqb_spec x h); subst; congruence || reflexivity. }
    split; [exact Wf'|]. split; [eapply ninv_same; eauto|]. constructor.
    - intros a x t Hi Ht. rewrite !Hel. destruct (Hin _ _ _ Hi) as [(-> & -> & ->)|(Hi' & _)]; [discriminate|]. apply (w_child _ E _ _ _ Hi' Ht).
    - intros a x Hi. destruct (Hin _ _ _ Hi) as [(_ & _ & ?)|(Hi' & Ha & Hx)]; [discriminate|].
      destruct (w_ph _ E _ _ Hi') as [(q & m & K1 & K2 & K3)|(K1 & q & y & K2 & K3)].
      + left. exists q, m. rewrite Hn, Hs by auto. auto.
      + right. rewrite Hel, Hs by auto. split; [exact K1|]. exists q, y. split; [exact K2|]. apply Hin'; auto. intros ->.
        destruct (w_ph _ E _ _ K3) as [(? & m & _ & Hm & _)|(K & _)]; [|rewrite (ph_not_elem _ _ _ K2) in K; discriminate].
        apply get_node_slot in Hm. congruence.
    - intros q x y Hq H1 H2. rewrite Hel in Hq. rewrite Hck. destruct (Hin _ _ _ H1) as [(_ & _ & ?)|(H1' & _)]; [discriminate|]. destruct (Hin _ _ _ H2) as [(_ & _ & ?)|(H2' & _)]; [discriminate|].
      eapply (w_link _ E); eassumption.
    - intros a x Hi. destruct (Hin _ _ _ Hi) as [(-> & -> & _)|(Hi' & _)].
      + exists nb, n. rewrite !Hn. split; [exact Hb|]. split; [exact Hc|]. split; [exact Hlb|]. right. exists path. split; [|exact Hnb].
        destruct (w_ph _ E _ _ Hhc) as [(q & m & K1 & K2 & _ & K4)|(K1 & _)]; [|congruence]. rewrite Hh in K1. injection K1 as <-. rewrite Hc in K2. injection K2 as <-. exact K4.
      + destruct (w_der _ E _ _ Hi') as (na & nx & K1 & K2 & K3). exists na, nx. rewrite !Hn. auto.
  Qed.
  Lemma iv_resolve_phs W l : forall g KS ws g', Iv W g KS -> foldM resolve_placeholder g l = (ws, Ok g') -> Iv W g' KS.
  Proof.
    induction l as [|h l IH]; intros g KS ws g' I H; cbn in H; [injection H as _ <-; exact I|].
    apply bind_ok in H as (w1 & g1 & w2 & H1 & H & _). eapply IH; [|exact H]. eapply iv_resolve_ph; eassumption.
  Qed.

  (** *** The base of a derived element *)
  Context (NDC : forall a e, MayBeBase ps a -> level_of a = LCluster -> Inside a e -> ~ derived_cluster e).

  Lemma may_base W g KS b c nb nc path : NInv ps W g KS -> b <> 0%nat -> c <> 0%nat -> get_node g b = Some nb -> get_node g c = Some nc -> n_level nb = n_level nc -> n_level nc <> LEnum ->
    derived_of (n_parsed nc) = Some path -> n_name nb = Some (path_end path) -> MayBeBase ps (n_parsed nb).
  Proof.
    intros V Hb0 Hc0 Hb Hc Hl Hev Hp Hn. destruct (v_node _ _ _ _ V _ _ Hb0 Hb) as (Elb & HDb & HU & HE). destruct (v_node _ _ _ _ V _ _ Hc0 Hc) as (Elc & HDc & _).
    split; [exact HDb|]. exists (n_parsed nc), path. split; [exact HDc|]. split; [congruence|]. split; [exact Hp|]. destruct (n_done nb) eqn:Ed.
    - destruct (HE eq_refl) as [(e0 & e' & K & _)|[_ (sc & vs & tv & v & K1 & _ & K2 & K3 & _)]]; [exfalso; apply Hev; rewrite <- Hl, Elb, K; reflexivity|].
      rewrite Hn in K3. injection K3 as K3. rewrite K3. eapply elabw_named; [exact (sy_weak _ _ _ _ _ _ K1)|]. destruct (n_tmpl nb); auto.
    - destruct (HU eq_refl) as (_ & _ & K & _). left. rewrite Hn in K. destruct (n_parsed nb) as [|?|[?|? ?]|?|e]; cbn in K, Elb |- *; try (injection K as K; congruence); [discriminate K|]. exfalso. apply Hev. congruence.
  Qed.
  Lemma inside_lt a e : Inside a e -> lv_lt (level_of a) (level_of e).
  Proof. induction 1 as [e H|x e _ IH H]; [now apply kids_level|]. eapply lv_lt_trans; [exact IH|]. now apply kids_level. Qed.
  (** an element derived from [b] does not lie below [b] *)
  Lemma der_not_desc W g KS b c : Iv W g KS -> In (b, c, DERIVE) (g_edges g) -> ~ Desc g b c.
  Proof.
    intros (Wf & V & E) He HD. destruct (w_der _ E _ _ He) as (nb & nc & Hb & Hc & Hl & Hor). destruct (desc_below _ _ _ _ _ _ _ V E Hb HD) as [(nd & K1 & K2 & K3)|(path & K & _)]; [|apply get_node_slot in Hc; congruence].
    rewrite Hc in K1. injection K1 as <-. rewrite Hl in K3. destruct K3 as [K3|[K3 _]]; [lia|]. destruct Hor as [[_ K]|(path & Hp & Hn)]; [congruence|].
    assert (Hb0 : b <> 0%nat). { intros ->. rewrite (v_root _ _ _ _ V) in Hb. injection Hb as <-. cbn in Hl. congruence. }
    assert (HM : MayBeBase ps (n_parsed nb)) by (eapply (may_base W g KS b c); eauto; congruence).
    destruct (desc_inside _ _ _ _ _ _ _ _ V E Hb0 Hb HM HD Hc) as [K|(a & A1 & A2 & A3)]; [congruence|]. destruct (v_node _ _ _ _ V _ _ K2 Hc) as (Elc & _).
    assert (La : level_of a = LCluster).
    { destruct A3 as [A3|A3]; [congruence|]. apply inside_lt in A2. rewrite <- Elc, K3 in A2. rewrite Hl, K3 in A3. destruct A2 as [A2|[A2 _]]; [|exact A2]. destruct A3 as [A3|[_ A3]]; [cbn in *; lia|exact A3]. }
    apply (NDC _ _ A1 La A2). split; congruence.
  Qed.
  Lemma derived_edge W g KS b i n path : Iv W g KS -> i <> 0%nat -> get_node g i = Some n -> n_done n = false -> derived_of (n_parsed n) = Some path -> In (b, i, DERIVE) (g_edges g) ->
    exists nb, get_node g b = Some nb /\ n_level nb = n_level n /\ n_name nb = Some (path_end path) /\ b <> 0%nat /\ ~ Desc g b i /\ n_level n <> LDevice /\ (n_level n = LEnum \/ MayBeBase ps (n_parsed nb)).
  Proof.
    intros I Hi Hn Hd Hp He. assert (Hnd := der_not_desc _ _ _ _ _ I He). destruct I as (Wf & V & E). destruct (w_der _ E _ _ He) as (nb & n' & Hb & Hn' & Hl & Hor). rewrite Hn in Hn'. injection Hn' as <-.
    destruct (v_node _ _ _ _ V _ _ Hi Hn) as (Elv & HD & _).
    assert (Hdev : n_level n <> LDevice). { rewrite Elv. destruct (n_parsed n) as [|?|[?|? ?]|?|?]; discriminate || contradiction. }
    assert (Hnm : n_name nb = Some (path_end path)). { destruct Hor as [[K _]|(path' & K1 & K2)]; [congruence|]. rewrite Hp in K1. injection K1 as <-. exact K2. }
    assert (Hb0 : b <> 0%nat). { intros ->. rewrite (v_root _ _ _ _ V) in Hb. injection Hb as <-. cbn in Hl. congruence. }
    exists nb. split; [exact Hb|]. split; [exact Hl|]. split; [exact Hnm|]. split; [exact Hb0|]. split; [exact Hnd|]. split; [exact Hdev|].
    destruct (n_level n) eqn:El; try (right; eapply (may_base W g KS b i); eauto; congruence). now left.
  Qed.
  (** between a base and the derived element there are only derivation edges *)
  Lemma no_lt l : l <> LCluster -> ~ lv_lt l l.
  Proof. intros H [K|[K _]]; [lia|congruence]. Qed.
  Lemma same_level_edges W g KS b i nb n t : Iv W g KS -> get_node g b = Some nb -> get_node g i = Some n -> ~ Desc g b i -> In (b, i, t) (g_edges g) -> t = DERIVE.
  Proof.
    intros (Wf & V & E) Hb Hi Hc He. destruct (is_child t) eqn:Et.
    - exfalso. apply Hc. apply t_step. exists t. split; [exact He|]. intros ->. discriminate.
    - destruct t; try discriminate; [|reflexivity]. exfalso. destruct (w_ph _ E _ _ He) as [(q & m & K & _)|(_ & q & x & K & _)].
      + apply get_node_slot in Hb. congruence.
      + apply get_node_slot in Hi. congruence.
  Qed.
  Lemma iv_remove W g KS b i nb n : Iv W g KS -> get_node g b = Some nb -> get_node g i = Some n -> ~ Desc g b i -> Iv W (remove_edge g b i) KS.
  Proof.
    intros I Hb Hi Hc. assert (Hd := fun t => same_level_edges W g KS b i nb n t I Hb Hi Hc). destruct I as (Wf & V & E).
    set (g' := remove_edge g b i). assert (Hck : forall x, ckids (g_edges g') x = ckids (g_edges g) x).
    { intros x. apply ckids_remove. intros t Ht. rewrite (Hd _ Ht). reflexivity. }
    assert (Hsub : forall e, In e (g_edges g') -> In e (g_edges g)) by (intros e; apply remove_first_In).
    assert (Hph : forall a x, In (a, x, PLACEHOLDER) (g_edges g) -> In (a, x, PLACEHOLDER) (g_edges g')).
    { intros a x Hin. apply remove_first_keep; [exact Hin|]. cbn. intros [-> ->]. discriminate (Hd _ Hin). }
    split; [apply WF_remove_edge, Wf|]. split; [eapply ninv_same; [exact V|reflexivity|exact Hck]|]. constructor.
    - intros a x t Hin. apply Hsub in Hin. apply (w_child _ E _ _ _ Hin).
    - intros a x Hin. apply Hsub in Hin. destruct (w_ph _ E _ _ Hin) as [K|(K1 & q & y & K2 & K3)]; [left; exact K|right]. split; [exact K1|]. exists q, y. auto.
    - intros p x y Hp H1 H2. rewrite Hck. apply Hsub in H1, H2. eapply (w_link _ E); eassumption.
    - intros a x Hin. apply Hsub in Hin. exact (w_der _ E _ _ Hin).
  Qed.

  (** *** The descendants of the base are copied below the derived element *)
  Definition pre (m : list (nat * nat)) (x : nat) : option nat := option_map fst (find (fun p => Nat.eqb (snd p) x) m).
  Lemma pre_In m x d : pre m x = Some d -> In (d, x) m.
  Proof.
    unfold pre. destruct (find _ m) as [[a b]|] eqn:E; cbn; intros H; [|discriminate]. injection H as <-. apply find_some in E as [H1 H2]. apply Nat.eqb_eq in H2. cbn in H2. now subst.
  Qed.
  Lemma pre_nd m x d : NoDup (map snd m) -> In (d, x) m -> pre m x = Some d.
  Proof.
    intros Hnd Hin. unfold pre. destruct (find _ m) as [[a b]|] eqn:E; cbn.
    - apply find_some in E as [H1 H2]. apply Nat.eqb_eq in H2. cbn in H2. subst b. f_equal. clear - Hnd Hin H1. induction m as [|[u w] m IH]; [destruct Hin|].
      cbn in Hnd. inversion Hnd as [|? ? Hni Hnd']; subst. destruct Hin as [Hin|Hin], H1 as [H1|H1].
      + congruence.
      + injection Hin as -> ->. exfalso. apply Hni. now apply in_map with (f := snd) in H1.
      + injection H1 as -> ->. exfalso. apply Hni. now apply in_map with (f := snd) in Hin.
      + auto.
    - exfalso. apply find_none with (x := (d, x)) in E; [|exact Hin]. cbn in E. rewrite Nat.eqb_refl in E. discriminate.
  Qed.
  Lemma pre_None m x : ~ In x (map snd m) -> pre m x = None.
  Proof. intros H. destruct (pre m x) as [d|] eqn:E; [|reflexivity]. exfalso. apply pre_In in E. apply H. now apply in_map with (f := snd) in E. Qed.
  Definition img (m : list (nat * nat)) (d : nat) : nat := match assoc m d with Some c => c | None => d end.
  Lemma img_In m d j : NoDup (map fst m) -> In (d, j) m -> img m d = j.
  Proof. intros H1 H2. unfold img. now rewrite (assoc_nd _ _ _ H1 H2). Qed.

  Lemma ckids_relabel m j d (ty : edge -> etype) es : (forall c t, In (d, c, t) es -> is_child t = true -> assoc m c <> None) ->
    (forall c t, In (d, c, t) es -> assoc m c <> None -> is_child (ty (d, c, t)) = is_child t) ->
    ckids (flat_map (fun e => match assoc m (e_dst e) with Some c => [(j, c, ty e)] | None => [] end) (filter (fun e => Nat.eqb (e_src e) d) es)) j = map (img m) (ckids es d).
  Proof.
    induction es as [|[[a b] t] es IH]; intros H1 H2; [reflexivity|]. rewrite ckids_cons. cbn [filter e_src fst].
    assert (IH' := IH (fun c u Hc => H1 c u (or_intror Hc)) (fun c u Hc => H2 c u (or_intror Hc))). clear IH.
    destruct (Nat.eqb_spec a d) as [->|]; [|now rewrite andb_false_r]. cbn [flat_map e_dst fst snd]. rewrite ckids_app, IH'. clear IH'.
    destruct (assoc m b) as [c|] eqn:Eb.
    - rewrite ckids_cons, Nat.eqb_refl, !andb_true_r. rewrite (H2 b t); [|now left|congruence]. destruct (is_child t); [|reflexivity]. cbn. unfold img at 2. rewrite Eb. reflexivity.
    - cbn. destruct (is_child t) eqn:Et; [|reflexivity]. exfalso. apply (H1 b t); auto. now left.
  Qed.
  Lemma flat_map_one {A B} (F : A -> list B) (sel : list B -> list nat) l x : (forall a b, sel (a ++ b) = sel a ++ sel b) -> sel [] = [] -> NoDup l -> In x l -> (forall y, In y l -> y <> x -> sel (F y) = []) ->
    sel (flat_map F l) = sel (F x).
  Proof.
    intros Happ Hnil Hnd Hin Ho. induction l as [|y l IH]; [destruct Hin|]. inversion Hnd as [|? ? Hni Hnd']; subst. cbn. rewrite Happ. destruct Hin as [->|Hin].
    - replace (sel (flat_map F l)) with (@nil nat); [apply app_nil_r|]. symmetry. clear - Happ Hnil Hni Ho. induction l as [|z l IH]; [exact Hnil|].
      cbn. rewrite Happ, Ho; [|right; now left|intros ->; apply Hni; now left]. apply IH; [|intros K; apply Hni; now right]. intros y Hy. apply Ho. destruct Hy as [->|Hy]; [now left|right; now right].
    - rewrite (Ho y); [cbn|now left|intros ->; contradiction]. apply IH; auto. intros z Hz. apply Ho. now right.
  Qed.
  Lemma ckids_copied_other g m d j x : x <> j -> ckids (copied g m (d, j)) x = [].
  Proof.
    intros Hx. apply ckids_none. intros c t Hin. unfold copied in Hin. apply in_app_iff in Hin as [Hin|Hin]; apply in_flat_map in Hin as (e & _ & Hin).
    - destruct (assoc m (e_dst e)); [|destruct Hin]. destruct Hin as [Hin|[]]. injection Hin as K _ _. congruence.
    - destruct (etype_eqb (e_typ e) DERIVE); [|destruct Hin]. destruct Hin as [Hin|[]]. injection Hin as _ _ <-. reflexivity.
  Qed.
  Lemma NoDup_of_map {A B} (f : A -> B) l : NoDup (map f l) -> NoDup l.
  Proof. induction l as [|a l IH]; cbn; intros H; [constructor|]. inversion H; subst. constructor; auto. intros K. apply H2. now apply in_map. Qed.

  Section Rep.
    Context (g : graph) (KS : nat -> list parsed) (b i : nat) (nb n : node) (g1 : graph) (m : list (nat * nat)).
    Context (I : Iv nobody g KS) (Hb : get_node g b = Some nb) (Hi : get_node g i = Some n) (Hl : n_level nb = n_level n) (Hcl : ~ Desc g b i) (Hmb : n_level n = LEnum \/ MayBeBase ps (n_parsed nb))
      (Hi0 : i <> 0%nat) (Hd : n_done n = false) (R : Replicated g b i g1 m) (Hder : derived_of (n_parsed n) <> None).
    Definition KS1 (x : nat) : list parsed := match pre m x with Some d => KS d | None => if Nat.eqb x i then KS i ++ KS b else KS x end.

    Let Wf := proj1 I.
    Let V := proj1 (proj2 I).
    Let E := proj2 (proj2 I).

    Lemma rep_old x s : get_slot g x = Some s -> get_slot g1 x = Some s.
    Proof. apply (rp_keeps _ _ _ _ _ R). Qed.
    Lemma rep_oldn x nx : get_node g x = Some nx -> get_node g1 x = Some nx.
    Proof. rewrite !get_node_slot. apply rep_old. Qed.
    Lemma rep_fresh d j : In (d, j) m -> get_slot g j = None /\ get_slot g1 j = get_slot g d /\ get_slot g d <> None.
    Proof.
      intros H. destruct (rp_fresh _ _ _ _ _ R _ _ H) as [H1 H2]. split; [exact H1|]. split; [exact H2|].
      assert (Hin : In d (map fst m)) by (now apply in_map with (f := fst) in H). apply (rp_dom _ _ _ _ _ R) in Hin.
      apply clos_trans_tn1 in Hin. destruct Hin as [d (t & He & _)|c d (t & He & _)]; apply (wf_edge _ Wf _ _ _ He).
    Qed.
    Lemma rep_node d j : In (d, j) m -> get_node g1 j = get_node g d.
    Proof. intros H. destruct (rep_fresh _ _ H) as (_ & H2 & _). unfold get_node; now rewrite H2. Qed.
    Lemma rep_KS d j : In (d, j) m -> KS1 j = KS d.
    Proof. intros H. unfold KS1. rewrite (pre_nd _ _ _ (rp_inj _ _ _ _ _ R) H). reflexivity. Qed.
    Lemma rep_KS_old x : get_slot g x <> None -> KS1 x = if Nat.eqb x i then KS i ++ KS b else KS x.
    Proof.
      intros H. unfold KS1. rewrite pre_None; [reflexivity|]. intros K. apply in_map_iff in K as ([d j] & E' & K). cbn in E'. subst j. destruct (rep_fresh _ _ K) as (K1 & _). congruence.
    Qed.
    Lemma rep_dom d : Desc g b d -> exists j, In (d, j) m.
    Proof. intros H. apply (rp_dom _ _ _ _ _ R) in H. apply in_map_iff in H as ([d' j] & E' & H). cbn in E'. subst. eauto. Qed.
    Lemma rep_desc d j : In (d, j) m -> Desc g b d.
    Proof. intros H. apply (rp_dom _ _ _ _ _ R). now apply in_map with (f := fst) in H. Qed.
    Lemma rep_down d j c t : In (d, j) m -> In (d, c, t) (g_edges g) -> t <> DERIVE -> exists c', In (c, c') m.
    Proof.
      intros H He Ht. apply rep_dom. eapply t_trans; [eapply rep_desc; exact H|]. apply t_step. exists t. auto.
    Qed.
    Lemma rep_src c t : In (b, c, t) (g_edges g) -> t <> DERIVE -> exists c', In (c, c') m.
    Proof. intros He Ht. apply rep_dom. apply t_step. exists t. auto. Qed.
    Lemma child_not_der t : is_child t = true -> t <> DERIVE.
    Proof. intros H ->. discriminate. Qed.
    Lemma rep_elem_below d j nd : In (d, j) m -> get_node g d = Some nd -> d <> 0%nat /\ lv_lt (n_level nb) (n_level nd).
    Proof.
      intros H Hn. destruct (desc_below _ _ _ _ _ d _ V E Hb (rep_desc _ _ H)) as [(nd' & K1 & K2 & K3)|(path & K & _)].
      - rewrite Hn in K1. injection K1 as <-. auto.
      - apply get_node_slot in Hn. congruence.
    Qed.
    Lemma rep_not_i j : ~ In (i, j) m.
    Proof. intros H. exact (Hcl (rep_desc _ _ H)). Qed.
    Lemma fresh_neq d j x s : In (d, j) m -> get_slot g x = Some s -> j <> x.
    Proof. intros H Hx ->. destruct (rep_fresh _ _ H) as [K _]. congruence. Qed.
    Lemma slot_of x nx : get_node g x = Some nx -> get_slot g x = Some (NElem nx).
    Proof. apply get_node_slot. Qed.

    Lemma rep_split : exists new, g_edges g1 = new ++ g_edges g /\ Permutation new (flat_map (copied g m) m ++ attached g b i m).
    Proof. exact (rp_perm _ _ _ _ _ R). Qed.
    Lemma ckids_flat_copied j d : In (d, j) m -> ckids (flat_map (copied g m) m) j = map (img m) (ckids (g_edges g) d).
    Proof.
      intros H. rewrite (flat_map_one (copied g m) (fun l => ckids l j) m (d, j)); auto.
      - unfold copied at 1. rewrite ckids_app. rewrite (ckids_none (flat_map (fun e => if etype_eqb (e_typ e) DERIVE then _ else _) _)).
        + rewrite app_nil_r. apply (ckids_relabel m j d e_typ); [|reflexivity]. intros c t Hin Ht.
          destruct (rep_down _ _ _ _ H Hin (child_not_der _ Ht)) as [c' Hc]. rewrite (assoc_nd _ _ _ (rp_fun _ _ _ _ _ R) Hc). discriminate.
        + intros c t Hin. apply in_flat_map in Hin as (e & _ & Hin). destruct (etype_eqb (e_typ e) DERIVE); [|destruct Hin]. destruct Hin as [Hin|[]]. injection Hin as _ _ <-. reflexivity.
      - intros. apply ckids_app.
      - eapply NoDup_of_map. exact (rp_fun _ _ _ _ _ R).
      - intros [d' j'] Hin Hne. apply ckids_copied_other. intros ->. apply Hne. f_equal.
        assert (K1 := pre_nd _ _ _ (rp_inj _ _ _ _ _ R) Hin). rewrite (pre_nd _ _ _ (rp_inj _ _ _ _ _ R) H) in K1. now injection K1.
    Qed.
    Lemma ckids_flat_old x : (forall d, ~ In (d, x) m) -> ckids (flat_map (copied g m) m) x = [].
    Proof.
      intros H. apply ckids_none. intros c t Hin. apply in_flat_map in Hin as ([d j] & Hm & Hin).
      destruct (is_child t) eqn:Et; [|reflexivity]. exfalso. assert (K : In c (ckids (copied g m (d, j)) x)) by (apply ckids_In; eauto).
      rewrite ckids_copied_other in K; [destruct K|]. intros ->. exact (H _ Hm).
    Qed.
    Lemma ckids_attached_other x : x <> i -> ckids (attached g b i m) x = [].
    Proof.
      intros H. apply ckids_none. intros c t Hin. unfold attached in Hin. apply in_flat_map in Hin as (e & _ & Hin). destruct (assoc m (e_dst e)); [|destruct Hin].
      destruct Hin as [Hin|[]]. injection Hin as K _ _. congruence.
    Qed.
    Lemma src_edge c t c' : In (b, c, t) (g_edges g) -> In (c, c') m -> t <> DERIVE.
    Proof. intros He Hm ->. exact (der_not_desc _ _ _ _ _ I He (rep_desc _ _ Hm)). Qed.
    Lemma attach_child c t c' : In (b, c, t) (g_edges g) -> In (c, c') m -> is_child (attach_type g b c) = is_child t.
    Proof.
      intros He Hm. assert (Ht := src_edge _ _ _ He Hm). unfold attach_type. destruct (is_elem g c) eqn:Ec.
      - replace (is_child t) with true; [destruct (match get_node g b with Some _ => _ | None => _ end); reflexivity|]. symmetry. destruct t; auto; try congruence.
        destruct (w_ph _ E _ _ He) as [(q & x & K & _)|(_ & q & x & K & _)]; [apply slot_of in Hb; congruence|]. rewrite (ph_not_elem _ _ _ K) in Ec. discriminate.
      - destruct (is_child t) eqn:Et; [|reflexivity]. destruct (w_child _ E _ _ _ He Et). congruence.
    Qed.
    Lemma ckids_attached : ckids (attached g b i m) i = map (img m) (ckids (g_edges g) b).
    Proof.
      unfold attached, out_edges. apply (ckids_relabel m i b (fun e => attach_type g b (e_dst e))).
      - intros c t He Ht. destruct (rep_src _ _ He (child_not_der _ Ht)) as [c' Hc]. rewrite (assoc_nd _ _ _ (rp_fun _ _ _ _ _ R) Hc). discriminate.
      - intros c t He Ha. cbn [e_dst fst snd]. destruct (assoc m c) as [c'|] eqn:Ec; [|congruence]. apply assoc_In in Ec. eapply attach_child; eassumption.
    Qed.

    Lemma rep_ckids_copy d j : In (d, j) m -> Permutation (ckids (g_edges g1) j) (map (img m) (ckids (g_edges g) d)).
    Proof.
      intros H. destruct rep_split as (new & -> & HP). rewrite ckids_app. apply (ckids_perm _ _ j) in HP. rewrite ckids_app, (ckids_flat_copied _ _ H), ckids_attached_other, app_nil_r in HP.
      - rewrite (ckids_none (g_edges g)); [now rewrite app_nil_r|]. intros c t He. destruct (wf_edge _ Wf _ _ _ He) as [K _]. destruct (rep_fresh _ _ H) as [K' _]. congruence.
      - eapply fresh_neq; [exact H|apply slot_of, Hi].
    Qed.
    Lemma rep_old_not_copy x : get_slot g x <> None -> forall d, ~ In (d, x) m.
    Proof. intros H d K. destruct (rep_fresh _ _ K) as [K' _]. congruence. Qed.
    Lemma rep_ckids_old x : get_slot g x <> None -> x <> i -> Permutation (ckids (g_edges g1) x) (ckids (g_edges g) x).
    Proof.
      intros H Hx. destruct rep_split as (new & -> & HP). rewrite ckids_app. apply (ckids_perm _ _ x) in HP.
      rewrite ckids_app, (ckids_flat_old _ (rep_old_not_copy _ H)), ckids_attached_other in HP by auto. cbn in HP. apply Permutation_sym, Permutation_nil in HP. rewrite HP. reflexivity.
    Qed.
    Lemma rep_ckids_target : Permutation (ckids (g_edges g1) i) (ckids (g_edges g) i ++ map (img m) (ckids (g_edges g) b)).
    Proof.
      destruct rep_split as (new & -> & HP). rewrite ckids_app. apply (ckids_perm _ _ i) in HP.
      rewrite ckids_app, (ckids_flat_old i), ckids_attached in HP by (apply rep_old_not_copy; rewrite (slot_of _ _ Hi); discriminate). cbn in HP. rewrite HP. apply Permutation_app_comm.
    Qed.

    (** the copies *)
    Lemma rep_img_node d c t : (d = b \/ exists j, In (d, j) m) -> In (d, c, t) (g_edges g) -> is_child t = true -> In (c, img m c) m.
    Proof.
      intros Hor He Ht. assert (K : exists c', In (c, c') m).
      { destruct Hor as [->|[j Hj]]; [eapply rep_src|eapply rep_down]; eauto; now apply child_not_der. }
      destruct K as [c' K]. rewrite (img_In _ _ _ (rp_fun _ _ _ _ _ R) K). exact K.
    Qed.
    Lemma rep_fam_cond d c : (d = b \/ exists j, In (d, j) m) -> In c (ckids (g_edges g) d) ->
      get_node g1 (img m c) = get_node g c /\ (KS1 (img m c) = KS c \/ undone_at g c) /\ (nobody c -> img m c = i).
    Proof.
      intros Hor Hc. apply ckids_In in Hc as (t & He & Ht). assert (K := rep_img_node _ _ _ Hor He Ht). split; [now apply rep_node|]. split; [left; now apply rep_KS|intros []].
    Qed.
    Lemma rep_nd d : (d = b \/ exists j, In (d, j) m) -> NoDup (map (img m) (ckids (g_edges g) d)).
    Proof.
      intros Hor. assert (Hc : forall c, In c (ckids (g_edges g) d) -> In (c, img m c) m) by (intros c H; apply ckids_In in H as (t & He & Ht); eapply rep_img_node; eauto).
      assert (Hnd := v_nd _ _ _ _ V d). revert Hc Hnd. generalize (ckids (g_edges g) d). intros l. induction l as [|c l IH]; intros Hc Hnd; cbn; [constructor|].
      inversion Hnd as [|? ? Hni Hnd']; subst. constructor; [|apply IH; auto; intros x Hx; apply Hc; now right].
      intros K. apply in_map_iff in K as (c2 & K1 & K2). assert (L1 := Hc c (or_introl eq_refl)). assert (L2 := Hc c2 (or_intror K2)). rewrite K1 in L2.
      assert (K3 := pre_nd _ _ _ (rp_inj _ _ _ _ _ R) L1). rewrite (pre_nd _ _ _ (rp_inj _ _ _ _ _ R) L2) in K3. injection K3 as ->. contradiction.
    Qed.

    Lemma rep_ninv : NInv ps (fun x => x = i) g1 KS1.
    Proof.
      constructor.
      - apply rep_oldn, (v_root _ _ _ _ V).
      - intros x nx Hx Hn. destruct (pre m x) as [d|] eqn:Ep.
        + apply pre_In in Ep. rewrite (rep_node _ _ Ep) in Hn. destruct (rep_elem_below _ _ _ Ep Hn) as [Hd0 _].
          destruct (v_node _ _ _ _ V _ _ Hd0 Hn) as (H1 & H2 & H3 & H4). split; [exact H1|]. split; [exact H2|]. unfold UndoneOk, EvcDone, ElemDone in *. rewrite (rep_KS _ _ Ep). split; [|exact H4].
          intros Hd'. destruct (H3 Hd') as (K1 & K2 & K3 & [[]|K4]). auto.
        + assert (Hg : get_node g x = Some nx).
          { apply get_node_slot in Hn. assert (Hs : get_slot g1 x <> None) by congruence. destruct (rp_only _ _ _ _ _ R _ Hs) as [K|K].
            - destruct (get_slot g x) as [s|] eqn:Es; [|congruence]. rewrite (rep_old _ _ Es) in Hn. injection Hn as ->. now apply get_node_slot.
            - exfalso. apply in_map_iff in K as ([d j] & K1 & K2). cbn in K1. subst j. rewrite (pre_nd _ _ _ (rp_inj _ _ _ _ _ R) K2) in Ep. discriminate. }
          destruct (v_node _ _ _ _ V _ _ Hx Hg) as (H1 & H2 & H3 & H4). split; [exact H1|]. split; [exact H2|]. destruct (Nat.eq_dec x i) as [->|Hxi].
          * rewrite Hi in Hg. injection Hg as <-. split; [|congruence]. intros Hd'. destruct (H3 Hd') as (K1 & K2 & K3 & _). repeat split; auto.
          * assert (Ek : KS1 x = KS x). { unfold KS1. rewrite Ep. destruct (Nat.eqb_spec x i); congruence. }
            unfold UndoneOk, EvcDone, ElemDone in *. rewrite Ek. split; [|exact H4]. intros Hd'. destruct (H3 Hd') as (K1 & K2 & K3 & [[]|K4]). auto.
      - intros x Hx. apply is_elem_node in Hx as [nx Hn]. destruct (pre m x) as [d|] eqn:Ep.
        + apply pre_In in Ep. rewrite (rep_node _ _ Ep) in Hn. assert (Hde : is_elem g d = true) by (apply is_elem_node; eauto).
          eapply (Kids_map ps nobody (fun x => x = i) g KS g1 KS1 (img m) d x); [apply (v_kids _ _ _ _ V _ Hde)|now apply rep_ckids_copy|now apply rep_KS|].
          intros c Hc. eapply rep_fam_cond; eauto.
        + assert (Hg : get_node g x = Some nx).
          { apply get_node_slot in Hn. assert (Hs : get_slot g1 x <> None) by congruence. destruct (rp_only _ _ _ _ _ R _ Hs) as [K|K].
            - destruct (get_slot g x) as [s|] eqn:Es; [|congruence]. rewrite (rep_old _ _ Es) in Hn. injection Hn as ->. now apply get_node_slot.
            - exfalso. apply in_map_iff in K as ([d j] & K1 & K2). cbn in K1. subst j. rewrite (pre_nd _ _ _ (rp_inj _ _ _ _ _ R) K2) in Ep. discriminate. }
          assert (Hxe : is_elem g x = true) by (apply is_elem_node; eauto). assert (VK := v_kids _ _ _ _ V _ Hxe).
          assert (Hsame : forall c, In c (ckids (g_edges g) x) -> get_node g1 c = get_node g c /\ (KS1 c = KS c \/ undone_at g c) /\ (nobody c -> c = i)).
          { intros c Hc. destruct (child_level _ _ _ _ _ _ _ V Hg Hc) as (_ & nc & Hnc & _). split; [rewrite Hnc; now apply rep_oldn|]. split; [|intros []].
            rewrite rep_KS_old by (rewrite (slot_of _ _ Hnc); discriminate). destruct (Nat.eqb_spec c i) as [->|]; [right; exists n; auto|now left]. }
          assert (Hsl : get_slot g x <> None) by (rewrite (slot_of _ _ Hg); discriminate).
          destruct (Nat.eq_dec x i) as [->|Hxi].
          * destruct VK as (fams & HP & HF). assert (Hbe : is_elem g b = true) by (apply is_elem_node; eauto).
            destruct (v_kids _ _ _ _ V _ Hbe) as (famsb & HPb & HFb). exists (fams ++ map (map (img m)) famsb). split.
            { rewrite rep_ckids_target, concat_app, concat_map_map. apply Permutation_app; [exact HP|now apply Permutation_map]. }
            rewrite rep_KS_old, Nat.eqb_refl by auto. apply Forall2_app.
            { rewrite <- (map_id fams), <- (map_ext _ _ (@map_id nat)). eapply Fams_map; [apply incl_appl, incl_refl|exact HF|]. intros c Hc. apply Hsame. eapply Permutation_in; [symmetry; exact HP|exact Hc]. }
            eapply Fams_map; [apply incl_appr, incl_refl|exact HFb|]. intros c Hc. apply (rep_fam_cond b); [now left|]. eapply Permutation_in; [symmetry; exact HPb|exact Hc].
          * eapply (Kids_same ps nobody (fun x => x = i)); [exact VK|now apply rep_ckids_old| |exact Hsame]. rewrite rep_KS_old by auto. destruct (Nat.eqb_spec x i); congruence.
      - intros x. destruct (ckids (g_edges g1) x) as [|c0 l0] eqn:Ec; [constructor|].
        assert (Hs : get_slot g1 x <> None).
        { assert (K : In c0 (ckids (g_edges g1) x)) by (rewrite Ec; now left). apply ckids_In in K as (t & K & _). apply (wf_edge _ (rp_wf _ _ _ _ _ R) _ _ _ K). }
        rewrite <- Ec. clear Ec. destruct (rp_only _ _ _ _ _ R _ Hs) as [K|K].
        + destruct (Nat.eq_dec x i) as [->|Hxi].
          * eapply Permutation_NoDup; [symmetry; exact rep_ckids_target|]. apply NoDup_app_intro; [apply (v_nd _ _ _ _ V)|apply rep_nd; now left|].
            intros c K1 K2. apply in_map_iff in K2 as (d & K2 & K3). apply ckids_In in K3 as (t & K3 & K4). assert (K5 := rep_img_node _ _ _ (or_introl eq_refl) K3 K4). rewrite K2 in K5.
            destruct (rep_fresh _ _ K5) as [K6 _]. apply ckids_In in K1 as (t1 & K1 & _). apply (wf_edge _ Wf) in K1. tauto.
          * eapply Permutation_NoDup; [symmetry; now apply rep_ckids_old|]. apply (v_nd _ _ _ _ V).
        + apply in_map_iff in K as ([d j] & K1 & K2). cbn in K1. subst j. eapply Permutation_NoDup; [symmetry; apply (rep_ckids_copy _ _ K2)|]. apply rep_nd. eauto.
      - intros x nx e Hn He. destruct (pre m x) as [d|] eqn:Ep.
        + apply pre_In in Ep. rewrite (rep_node _ _ Ep) in Hn. rewrite (rep_KS _ _ Ep) in He. eapply (v_prov _ _ _ _ V); eassumption.
        + unfold KS1 in He. rewrite Ep in He. assert (Hg : get_node g x = Some nx).
          { apply get_node_slot in Hn. assert (Hs : get_slot g1 x <> None) by congruence. destruct (rp_only _ _ _ _ _ R _ Hs) as [K|K].
            - destruct (get_slot g x) as [s|] eqn:Es; [|congruence]. rewrite (rep_old _ _ Es) in Hn. injection Hn as ->. now apply get_node_slot.
            - exfalso. apply in_map_iff in K as ([d j] & K1 & K2). cbn in K1. subst j. rewrite (pre_nd _ _ _ (rp_inj _ _ _ _ _ R) K2) in Ep. discriminate. }
          destruct (Nat.eqb_spec x i) as [->|]; [|eapply (v_prov _ _ _ _ V); eassumption].
          rewrite Hi in Hg. injection Hg as <-. apply in_app_iff in He as [He|He]; [eapply (v_prov _ _ _ _ V); eassumption|].
          destruct (v_prov _ _ _ _ V _ _ _ Hb He) as [[K1 K2]|(e0 & K1 & K2 & K3)]; [left; split; congruence|]. right. exists e0. split; [|split; [congruence|exact K3]]. right.
          split; [|exact Hder]. destruct K1 as [->|[K1 _]]; [|exact K1]. destruct Hmb as [Hm0|Hm0]; [|exact Hm0]. exfalso. rewrite Hl, Hm0 in K2. destruct (n_parsed nb) as [|?|[?|? ?]|?|?]; try discriminate. destruct K3.
    Qed.

    (** the edges of the copies *)
    Lemma rep_elem d j : In (d, j) m -> is_elem g1 j = is_elem g d.
    Proof. intros H. unfold is_elem. now rewrite (rep_node _ _ H). Qed.
    Lemma rep_eleo x : is_elem g x = true -> is_elem g1 x = true.
    Proof. rewrite !is_elem_node. intros [nx H]. exists nx. now apply rep_oldn. Qed.
    Lemma rep_inj d d' j : In (d, j) m -> In (d', j) m -> d = d'.
    Proof. intros H1 H2. assert (K := pre_nd _ _ _ (rp_inj _ _ _ _ _ R) H1). rewrite (pre_nd _ _ _ (rp_inj _ _ _ _ _ R) H2) in K. now injection K. Qed.
    Lemma rep_fun d j j' : In (d, j) m -> In (d, j') m -> j = j'.
    Proof. intros H1 H2. rewrite <- (img_In _ _ _ (rp_fun _ _ _ _ _ R) H1). apply (img_In _ _ _ (rp_fun _ _ _ _ _ R) H2). Qed.
    Lemma attach_ph c t c' : In (b, c, t) (g_edges g) -> In (c, c') m -> attach_type g b c = PLACEHOLDER -> In (b, c, PLACEHOLDER) (g_edges g).
    Proof.
      intros He Hm Ht. assert (K := src_edge _ _ _ He Hm). assert (K2 := attach_child _ _ _ He Hm). rewrite Ht in K2. destruct t; try discriminate; [exact He|congruence].
    Qed.
    Lemma attach_not_der c : attach_type g b c <> DERIVE.
    Proof. unfold attach_type. destruct (is_elem g c); [|discriminate]. destruct (match get_node g b with Some _ => _ | None => _ end); discriminate. Qed.

    Lemma rep_einv : EInv g1.
    Proof.
      destruct (rp_edges _ _ _ _ _ R) as (new & He & Hnew).
      assert (Hold : forall e, In e (g_edges g) -> In e (g_edges g1)) by (intros e K; rewrite He; apply in_app_iff; now right).
      assert (Hc1 : forall d a c x t, In (d, a) m -> In (c, x) m -> In (d, c, t) (g_edges g) -> In (a, x, t) (g_edges g1)).
      { intros d a c x t K1 K2 K3. rewrite He. apply in_app_iff. left. apply Hnew. left. eauto. }
      assert (Hsrc : forall a x t, In (a, x, t) (g_edges g) -> forall d, ~ In (d, a) m).
      { intros a x t K d K2. destruct (rep_fresh _ _ K2) as [K3 _]. apply (wf_edge _ Wf) in K. tauto. }
      assert (Hisl : get_slot g i <> None) by (rewrite (slot_of _ _ Hi); discriminate).
      constructor.
      - intros a x t Hin Ht. rewrite He in Hin. apply in_app_iff in Hin as [Hin|Hin].
        + apply Hnew in Hin as [(d & c & K1 & K2 & K3)|[(d & _ & _ & ->)|(-> & c & t0 & K1 & K2 & ->)]]; [|discriminate|].
          * rewrite (rep_elem _ _ K1), (rep_elem _ _ K2). apply (w_child _ E _ _ _ K3 Ht).
          * rewrite (attach_child _ _ _ K1 K2) in Ht. rewrite (rep_elem _ _ K2). split; [apply rep_eleo, is_elem_node; eauto|]. apply (w_child _ E _ _ _ K1 Ht).
        + destruct (w_child _ E _ _ _ Hin Ht). split; now apply rep_eleo.
      - intros a x Hin. rewrite He in Hin. apply in_app_iff in Hin as [Hin|Hin].
        + apply Hnew in Hin as [(d & c & K1 & K2 & K3)|[(d & _ & _ & ?)|(-> & c & t0 & K1 & K2 & K3)]]; [|discriminate|].
          * destruct (w_ph _ E _ _ K3) as [(path & nc & L1 & L2 & L3)|(L1 & path & y & L2 & L3)].
            { left. exists path, nc. rewrite (rep_node _ _ K2). destruct (rep_fresh _ _ K1) as (_ & -> & _). auto. }
            right. rewrite (rep_elem _ _ K1). split; [exact L1|]. destruct (rep_down _ _ _ _ K2 L3) as [y' Hy]; [discriminate|]. exists path, y'. destruct (rep_fresh _ _ K2) as (_ & -> & _).
            split; [exact L2|]. eapply Hc1; eassumption.
          * symmetry in K3. assert (K4 := attach_ph _ _ _ K1 K2 K3). destruct (w_ph _ E _ _ K4) as [(path & nc & L1 & _)|(L1 & path & y & L2 & L3)].
            { rewrite (slot_of _ _ Hb) in L1. discriminate. }
            right. split; [apply rep_eleo, is_elem_node; eauto|]. destruct (rep_down _ _ _ _ K2 L3) as [y' Hy]; [discriminate|]. exists path, y'. destruct (rep_fresh _ _ K2) as (_ & -> & _).
            split; [exact L2|]. eapply Hc1; eassumption.
        + destruct (w_ph _ E _ _ Hin) as [(path & nc & L1 & L2 & L3)|(L1 & path & y & L2 & L3)].
          * left. exists path, nc. split; [now apply rep_old|]. split; [now apply rep_oldn|exact L3].
          * right. split; [now apply rep_eleo|]. exists path, y. split; [now apply rep_old|auto].
      - intros p h c Hp H1 H2. rewrite He in H1, H2. apply in_app_iff in H1 as [H1|H1].
        + assert (Hh : forall h', In (h', h) m -> exists c', In (c', c) m /\ In (h', c', PLACEHOLDER) (g_edges g)).
          { intros h' Hh. apply in_app_iff in H2 as [H2|H2].
            - apply Hnew in H2 as [(d & c' & K1 & K2 & K3)|[(d & _ & _ & ?)|(-> & _)]]; [|discriminate|].
              + assert (d = h') as -> by (eapply rep_inj; eassumption). eauto.
              + exfalso. eapply rep_old_not_copy; eassumption.
            - exfalso. eapply Hsrc; eassumption. }
          apply Hnew in H1 as [(p' & h' & K1 & K2 & K3)|[(d & _ & _ & ?)|(-> & h' & t0 & K1 & K2 & K3)]]; [|discriminate|].
          * destruct (Hh _ K2) as (c' & L1 & L2). rewrite (rep_elem _ _ K1) in Hp. assert (L3 := w_link _ E _ _ _ Hp K3 L2).
            eapply Permutation_in; [symmetry; apply (rep_ckids_copy _ _ K1)|]. rewrite <- (img_In _ _ _ (rp_fun _ _ _ _ _ R) L1). now apply in_map.
          * symmetry in K3. assert (K4 := attach_ph _ _ _ K1 K2 K3). destruct (Hh _ K2) as (c' & L1 & L2).
            assert (L3 := w_link _ E b h' c' (proj2 (is_elem_node _ _) (ex_intro _ _ Hb)) K4 L2).
            eapply Permutation_in; [symmetry; apply rep_ckids_target|]. apply in_app_iff. right. rewrite <- (img_In _ _ _ (rp_fun _ _ _ _ _ R) L1). now apply in_map.
        + assert (Hpo : get_slot g p <> None /\ get_slot g h <> None) by apply (wf_edge _ Wf _ _ _ H1).
          assert (Hpe : is_elem g p = true).
          { apply is_elem_node in Hp as [np Hp]. apply is_elem_node. destruct (get_slot g p) as [s|] eqn:Es; [|tauto]. rewrite (get_node_slot g1) in Hp. rewrite (rep_old _ _ Es) in Hp. injection Hp as ->.
            exists np. now apply get_node_slot. }
          apply in_app_iff in H2 as [H2|H2].
          * exfalso. apply Hnew in H2 as [(d & c' & K1 & _)|[(d & _ & _ & ?)|(-> & _)]]; [|discriminate|].
            { eapply rep_old_not_copy; [|exact K1]. tauto. }
            destruct (w_ph _ E _ _ H1) as [(path & nc & L1 & _)|(_ & path & y & L2 & _)].
            { rewrite (ph_not_elem _ _ _ L1) in Hpe. discriminate. }
            rewrite (slot_of _ _ Hi) in L2. discriminate.
          * assert (L := w_link _ E _ _ _ Hpe H1 H2). apply ckids_In in L as (t & L1 & L2). apply ckids_In. exists t. auto.
      - intros a x Hin. rewrite He in Hin. apply in_app_iff in Hin as [Hin|Hin].
        + apply Hnew in Hin as [(d & c & K1 & K2 & K3)|[(d & K1 & K2 & _)|(-> & c & t0 & K1 & K2 & K3)]].
          * rewrite (rep_node _ _ K1), (rep_node _ _ K2). exact (w_der _ E _ _ K3).
          * rewrite (rep_node _ _ K1). destruct (w_der _ E _ _ K2) as (na & nx & L1 & L2). exists na, nx. split; [now apply rep_oldn|exact L2].
          * exfalso. symmetry in K3. exact (attach_not_der _ K3).
        + destruct (w_der _ E _ _ Hin) as (na & nx & L1 & L2 & L3). exists na, nx. split; [now apply rep_oldn|]. split; [now apply rep_oldn|exact L3].
    Qed.
    Lemma rep_iv : Iv (fun x => x = i) g1 KS1.
    Proof. split; [apply (rp_wf _ _ _ _ _ R)|]. split; [apply rep_ninv|apply rep_einv]. Qed.
  End Rep.
End Step.
