(** * DrawFacts: an unresolved reference always belongs to an element that has not been processed. *)
From Coq Require Import Relations.
From Verif Require Import Base PyStr PyInt Types ElemModel FinalModel ResolveModel GraphFacts ReplicateFacts ResolveWF TopoFacts ExpandInv ExpandStep ExpandBuild ExpandNode BuildOk SpecLog LogListed.

Definition PhI (g : graph) : Prop := forall h path, get_slot g h = Some (NPh path) -> exists c n, In (h, c, PLACEHOLDER) (g_edges g) /\ get_node g c = Some n /\ n_done n = false.
Lemma keep_remove p c es e : e_src e <> p -> In e es -> In e (remove_first p c es).
Proof.
  induction es as [|x es IH]; intros Hne H; [destruct H|]. cbn [remove_first]. destruct (Nat.eqb (e_src x) p && Nat.eqb (e_dst x) c) eqn:E.
  - destruct H as [->|H]; [|exact H]. apply andb_prop in E as [E _]. apply Nat.eqb_eq in E. contradiction.
  - destruct H as [->|H]; [now left|right; auto].
Qed.
Lemma keep_update p c t es e : e_src e <> p -> In e es -> In e (update_first p c t es).
Proof.
  induction es as [|x es IH]; intros Hne H; [destruct H|]. cbn [update_first]. destruct (Nat.eqb (e_src x) p && Nat.eqb (e_dst x) c) eqn:E.
  - destruct H as [->|H]; [|now right]. apply andb_prop in E as [E _]. apply Nat.eqb_eq in E. contradiction.
  - destruct H as [->|H]; [now left|right; auto].
Qed.
Lemma keep_resolved i cs e : forall es, e_src e <> i -> In e es -> In e (set_resolved es i cs).
Proof. unfold set_resolved. induction cs as [|c cs IH]; intros es Hne H; [exact H|]. cbn. apply IH; [exact Hne|]. now apply keep_update. Qed.
Lemma remove_In p c es e : In e (remove_first p c es) -> In e es.
Proof. induction es as [|x es IH]; [intros []|]. cbn [remove_first]. destruct (Nat.eqb (e_src x) p && Nat.eqb (e_dst x) c); [now right|]. intros [->|H]; [now left|right; auto]. Qed.
Lemma update_In p c t es a b u : In (a, b, u) (update_first p c t es) -> In (a, b, u) es \/ u = t.
Proof.
  induction es as [|x es IH]; [intros []|]. cbn [update_first]. destruct (Nat.eqb (e_src x) p && Nat.eqb (e_dst x) c).
  - intros [H|H]; [right; now injection H|left; now right].
  - intros [->|H]; [left; now left|]. destruct (IH H); [left; now right|now right].
Qed.
Lemma resolved_In i cs a b u : forall es, In (a, b, u) (set_resolved es i cs) -> In (a, b, u) es \/ u = CHILD_RESOLVED.
Proof. unfold set_resolved. induction cs as [|c cs IH]; intros es H; [now left|]. cbn in H. destruct (IH _ H) as [K|K]; [|now right]. exact (update_In _ _ _ _ _ _ _ K). Qed.

Lemma phi_replicated g b i g1 m : WF g -> PhI g -> Replicated g b i g1 m -> is_elem g b = true -> PhI g1.
Proof.
  intros W P R Hb h path Hh. destruct (rp_edges _ _ _ _ _ R) as (new & He & Hn).
  destruct (rp_only _ _ _ _ _ R h ltac:(congruence)) as [Ho|Hm].
  - destruct (get_slot g h) as [s|] eqn:Es; [|congruence]. assert (E := rp_keeps _ _ _ _ _ R h s Es). rewrite Hh in E. injection E as <-.
    destruct (P h path Es) as (c & n & H1 & H2 & H3). exists c, n. split; [rewrite He; apply in_app_iff; now right|]. split; [|exact H3]. exact (ReplicateFacts.keeps_node _ _ _ _ (rp_keeps _ _ _ _ _ R) H2).
  - apply in_map_iff in Hm as ((k & h') & E & Hm). cbn in E. subst h'. destruct (rp_fresh _ _ _ _ _ R k h Hm) as [_ F]. rewrite Hh in F. symmetry in F. destruct (P k path F) as (c & n & H1 & H2 & H3).
    assert (HD : Desc g b k) by (apply (rp_dom _ _ _ _ _ R); apply in_map_iff; now exists (k, h)).
    assert (HDc : Desc g b c) by (eapply t_trans; [exact HD|]; apply t_step; exists PLACEHOLDER; split; [exact H1|discriminate]).
    apply (rp_dom _ _ _ _ _ R) in HDc. apply in_map_iff in HDc as ((c' & c1) & E & Hc). cbn in E. subst c'. exists c1, n. split; [|split; [|exact H3]].
    + rewrite He. apply in_app_iff. left. apply Hn. left. now exists k, c.
    + apply get_node_slot. destruct (rp_fresh _ _ _ _ _ R c c1 Hc) as [_ ->]. now apply get_node_slot.
Qed.
(** references lead only to elements of the copy, or as before *)
Lemma unlinked_replicated g b i g1 m x : Replicated g b i g1 m -> get_slot g x <> None -> unlinked g x -> unlinked g1 x.
Proof.
  intros R Hx U a H. destruct (rp_edges _ _ _ _ _ R) as (new & He & Hn). rewrite He in H. apply in_app_iff in H as [H|H]; [|exact (U a H)].
  assert (F : forall c, In (c, x) m -> False) by (intros c Hc; destruct (rp_fresh _ _ _ _ _ R c x Hc) as [K _]; contradiction).
  apply Hn in H as [(k & c & _ & Hc & _)|[(k & Hc & _)|(_ & c & t0 & _ & Hc & _)]]; exact (F _ Hc).
Qed.
Lemma phi_prepared g i base g1 : WF g -> PhI g -> Prepared g i base g1 -> (forall b, base = Some b -> is_elem g b = true) -> PhI g1 /\ forall x, get_slot g x <> None -> unlinked g x -> unlinked g1 x.
Proof.
  intros W P H Hb. destruct base as [b|]; cbn in H; [|subst; auto]. destruct H as (m & R). specialize (Hb b eq_refl). split.
  - apply (phi_replicated (remove_edge g b i) b i g1 m); [now apply WF_remove_edge| |exact R|exact Hb].
    intros h path Hh. destruct (P h path Hh) as (c & n & H1 & H2 & H3). exists c, n. split; [|auto]. cbn [remove_edge g_edges]. apply keep_remove; [|exact H1]. cbn. intros ->. unfold is_elem, get_node in Hb.
    change (get_slot g b = Some (NPh path)) in Hh. rewrite Hh in Hb. discriminate Hb.
  - intros x Hx U. apply (unlinked_replicated (remove_edge g b i) b i g1 m x R Hx). intros a Ha. apply (U a). exact (remove_In _ _ _ _ Ha).
Qed.
(** an element that is not waiting for a reference is marked as processed *)
Lemma phi_set g i n n' : PhI g -> get_node g i = Some n -> unlinked g i -> PhI (set_node g i n').
Proof.
  intros P Hn U h path Hh. rewrite (set_node_slot _ _ _ _ Hn) in Hh. destruct (Nat.eqb_spec i h) as [->|Hne]; [discriminate|]. destruct (P h path Hh) as (c & m & H1 & H2 & H3). exists c, m. split; [exact H1|]. split; [|exact H3].
  rewrite (set_node_node _ _ _ _ _ Hn). destruct (Nat.eqb_spec i c) as [->|_]; [|exact H2]. exfalso. exact (U h H1).
Qed.
Definition Keeps1 (g g' : graph) : Prop := PhI g' /\ forall x, get_slot g x <> None -> unlinked g x -> unlinked g' x.
Lemma phi_update g i base v t ws g' n : WF g -> PhI g -> get_node g i = Some n -> unlinked g i -> (forall b, base = Some b -> is_elem g b = true) -> update_node g i base v t = (ws, Ok g') -> Keeps1 g g'.
Proof.
  intros W P Hn U Hb H. apply (update_node_spec _ _ _ _ _ _ _ n W Hn) in H as (g1 & HP & _ & W' & Hs & He & _). destruct (phi_prepared _ _ _ _ W P HP Hb) as [P1 U1]. destruct (prepared_keeps _ _ _ _ W HP) as [W1 K1].
  assert (Hi : get_slot g i <> None) by (apply get_node_slot in Hn; congruence). split.
  - intros h path Hh. rewrite Hs in Hh. destruct (Nat.eqb_spec i h) as [->|Hne]; [discriminate|]. destruct (P1 h path Hh) as (c & m & H1 & H2 & H3). exists c, m. split; [rewrite He; apply keep_resolved; [cbn; congruence|exact H1]|]. split; [|exact H3].
    apply get_node_slot. rewrite Hs. destruct (Nat.eqb_spec i c) as [->|_]; [|now apply get_node_slot]. exfalso. exact (U1 c Hi U h H1).
  - intros x Hx Ux a Ha. rewrite He in Ha. apply resolved_In in Ha as [Ha|Ha]; [|discriminate]. exact (U1 x Hx Ux a Ha).
Qed.
Lemma phi_process g i ws g' : WF g -> PhI g -> unlinked g i -> process_node g i = (ws, Ok g') -> Keeps1 g g'.
Proof.
  intros W P U H. apply process_node_inv in H as (n & base & bv & Hn & _ & HB & H). assert (Hi : get_slot g i <> None) by (apply get_node_slot in Hn; congruence).
  assert (Hb : forall b, base = Some b -> is_elem g b = true).
  { intros b Eb. destruct HB as [(_ & -> & _)|(path & b' & nb & _ & Eb' & _ & Hnb & _)]; [discriminate|]. rewrite Eb in Eb'. injection Eb' as <-. unfold is_elem. now rewrite Hnb. }
  destruct H as [(e & _ & w & H)|(_ & w & H)].
  - apply (process_evc_spec _ _ _ _ _ n W Hn) in H as [(_ & W' & ->)|(b & nb & e' & g1 & Eb & _ & _ & (m & R) & W' & Hn1 & ->)].
    + split; [exact (phi_set _ _ _ _ P Hn U)|]. intros x _ Ux. exact Ux.
    + assert (P0 := phi_set g i n (mk_node (n_name n) (n_level n) (n_done n) (n_parsed nb) (n_processed n) (n_tmpl n)) P Hn U).
      assert (W0 : WF (set_node g i (mk_node (n_name n) (n_level n) (n_done n) (n_parsed nb) (n_processed n) (n_tmpl n)))) by (eapply WF_set_node; eassumption).
      assert (Hb0 : forall c, Some b = Some c -> is_elem (set_node g i (mk_node (n_name n) (n_level n) (n_done n) (n_parsed nb) (n_processed n) (n_tmpl n))) c = true).
      { intros c Ec. injection Ec as <-. unfold is_elem. rewrite (set_node_node _ _ _ _ _ Hn). destruct (Nat.eqb i b); [reflexivity|]. exact (Hb b Eb). }
      destruct (phi_prepared _ i (Some b) g1 W0 P0 (ex_intro _ m R) Hb0) as [P1 U1].
      assert (Hsl : forall x, get_slot g x <> None -> get_slot (set_node g i (mk_node (n_name n) (n_level n) (n_done n) (n_parsed nb) (n_processed n) (n_tmpl n))) x <> None).
      { intros x Hx. rewrite (set_node_slot _ _ _ _ Hn). destruct (Nat.eqb i x); [discriminate|exact Hx]. }
      split; [exact (phi_set _ _ _ _ P1 Hn1 (U1 i (Hsl i Hi) U))|]. intros x Hx Ux. exact (U1 x (Hsl x Hx) Ux).
  - apply process_dimable_inv in H as (w1 & is_dim & names & displays & w' & v & vs & _ & _ & w'' & H). destruct is_dim.
    + apply (update_dim_node_spec _ _ _ _ _ _ _ n W Hn) in H as (g1 & xs & (w2 & H1) & W' & K & _ & _ & _ & Hx & Hj & He). destruct (phi_update _ _ _ _ _ _ _ _ W P Hn U Hb H1) as [P1 U1]. split.
      * intros h path Hh. destruct (in_dec Nat.eq_dec h (map i_idx xs)) as [Hin|Hin]; [apply in_map_iff in Hin as (x & <- & Hin); destruct (Hx x Hin) as [_ E]; rewrite Hh in E; discriminate E|]. rewrite (Hj h Hin) in Hh.
        destruct (P1 h path Hh) as (c & m & Q1 & Q2 & Q3). exists c, m. split; [rewrite He; apply in_app_iff; right; apply in_app_iff; now right|]. split; [exact (ReplicateFacts.keeps_node _ _ _ _ K Q2)|exact Q3].
      * intros x Hs Ux a Ha. rewrite He in Ha. apply in_app_iff in Ha as [Ha|Ha]; [apply in_rev, in_map_iff in Ha as (? & E & _); discriminate E|]. apply in_app_iff in Ha as [Ha|Ha]; [apply in_rev, in_map_iff in Ha as (? & E & _); discriminate E|]. exact (U1 x Hs Ux a Ha).
    + exact (phi_update _ _ _ _ _ _ _ _ W P Hn U Hb H).
Qed.
Lemma phi_nodes l : forall g ws g', WF g -> PhI g -> (forall i, In i l -> is_elem g i = true /\ unlinked g i) -> foldM process_node g l = (ws, Ok g') -> PhI g'.
Proof.
  induction l as [|i l IH]; intros g ws g' W P Hl H; cbn [foldM] in H; [apply ret_ok in H as [<- _]; exact P|]. apply bind_ok in H as (w1 & g1 & w2 & H1 & H2 & _).
  destruct (Hl i (or_introl eq_refl)) as [_ U]. destruct (phi_process _ _ _ _ W P U H1) as [P1 U1]. assert (S1 := process_step _ _ _ _ W H1).
  apply (IH g1 w2 g' (st_wf _ _ _ S1) P1); [|exact H2]. intros j Hj. destruct (Hl j (or_intror Hj)) as [Hs Uj]. apply is_elem_node in Hs as (m & Hm). split.
  - apply is_elem_node. destruct (Nat.eq_dec j i) as [->|Hne]; [destruct (st_done _ _ _ S1) as (n' & Hn' & _); eauto|]. exists m. exact (st_keeps _ _ _ S1 _ _ Hne Hm).
  - apply U1; [apply get_node_slot in Hm; congruence|exact Uj].
Qed.
Lemma phi_resolve g p ws g' : PhI g -> resolve_placeholder g p = (ws, Ok g') -> PhI g'.
Proof.
  intros P H. apply resolve_ph_inv in H as [->|(parent & pn & child & n & path & b & _ & _ & _ & _ & Hp & Hc & _ & _ & ->)]; [exact P|].
  intros h q Hh. change (get_slot (remove_placeholder g p) h = Some (NPh q)) in Hh. rewrite (remove_ph_slot _ _ _ Hp) in Hh. destruct (Nat.eqb_spec p h) as [->|Hne]; [discriminate|].
  destruct (P h q Hh) as (c & m & H1 & H2 & H3). exists c, m. assert (Hcp : c <> p) by (intros ->; apply get_node_slot in H2; congruence). split; [|split; [|exact H3]].
  - right. cbn [remove_placeholder g_edges]. apply filter_In. split; [exact H1|]. cbn. apply not_eq_sym, Nat.eqb_neq in Hne. apply Nat.eqb_neq in Hcp. rewrite Hne, Hcp. reflexivity.
  - apply get_node_slot. change (get_slot (remove_placeholder g p) c = Some (NElem m)). rewrite (remove_ph_slot _ _ _ Hp). apply not_eq_sym, Nat.eqb_neq in Hcp. rewrite Hcp. now apply get_node_slot.
Qed.
Lemma phi_refs g l paths g' : PhI g -> References g l paths g' -> PhI g'.
Proof. intros P H. induction H as [g|g p l paths g1 ws H _ IH|g p l path paths g1 g2 ws _ H _ _ IH]; [exact P|auto|]. apply IH. exact (phi_resolve _ _ _ _ P H). Qed.
Lemma processable_free g i : In i (find_processable g) -> unlinked g i.
Proof.
  intros H a Ha. unfold find_processable in H. apply filter_In in H as [_ H]. unfold has_incoming in H. apply negb_true_iff in H.
  assert (K : existsb (fun e => etype_eqb (e_typ e) PLACEHOLDER) (in_edges g i) = true); [|congruence]. apply existsb_exists. exists (a, i, PLACEHOLDER). split; [|reflexivity]. unfold in_edges. apply filter_In. split; [exact Ha|]. cbn. apply Nat.eqb_refl.
Qed.
Lemma phi_run g rs g' : Run g rs g' -> WF g -> PhI g -> PhI g'.
Proof.
  induction 1 as [g paths g1 R E|g paths g1 nodes ws g2 rs g' R E Ne F _ IH]; intros W P; destruct (refs_step _ _ _ _ W R) as [W1 K]; assert (P1 := phi_refs _ _ _ _ P R); [exact P1|].
  destruct (topological_sorted_spec g1 (find_processable g1) W1) as (ND & _ & Hin). rewrite E in ND, Hin. destruct (nodes_step _ _ _ _ W1 ND F) as (W2 & _). apply IH; [exact W2|]. apply (phi_nodes nodes g1 ws g2 W1 P1); [|exact F].
  intros i Hi. apply Hin in Hi as [H1 H2]. split; [unfold unprocessed in H2; unfold is_elem; now destruct (get_node g1 i)|now apply processable_free].
Qed.
Lemma phi_start ps ws g : initialization ps = (ws, Ok g) -> PhI g.
Proof.
  intros H. destruct (st_initialization (DescribeFacts.loose ps) ws g H) as (KS & (_ & _ & E & _) & _). assert (L := proj2 (initialization_ok ps) _ _ H). intros h path Hh. destruct (ln_one _ _ L h path Hh) as [(c & _ & Ho) _].
  assert (Hc : In (h, c, PLACEHOLDER) (g_edges g)). { assert (X : In (h, c, PLACEHOLDER) (out_edges g h)) by (rewrite Ho; now left). unfold out_edges in X. apply filter_In in X. apply X. }
  destruct (w_ph _ E _ _ Hc) as [(path' & n & _ & Hn & Hd & _)|(He & _)]; [exists c, n; auto|]. apply is_elem_node in He as (m & Hm). apply get_node_slot in Hm. congruence.
Qed.
