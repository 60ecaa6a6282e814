(** * DepFacts: a peripheral waits for at most one base, and for none once it has been processed, in every state of the resolver (C43). *)
From Coq Require Import Relations.
From Verif Require Import Base PyStr PyInt Types ElemModel FinalModel ResolveModel GraphFacts ReplicateFacts ResolveWF TopoFacts SpecExpand ExpandInv ExpandStep ExpandBuild ExpandNode BuildOk SpecLog LogListed DrawFacts AcceptFacts SpecSearch SearchFacts ResolveInv LogFacts LookupOk TermFacts ExpandRounds EdgeFacts.
Definition waits (j : nat) (e : edge) : bool := Nat.eqb (e_dst e) j && negb (is_child (e_typ e)).
Definition deps (g : graph) (j : nat) : nat := length (filter (waits j) (g_edges g)).
Definition PO (g : graph) : Prop := forall j n, get_node g j = Some n -> n_level n = LPeripheral -> (deps g j <= (if n_done n then 0 else 1))%nat /\ (deps g j <> 0%nat -> derived_of (n_parsed n) <> None).
Lemma po_step g g' : PO g -> (forall j n', get_node g' j = Some n' -> n_level n' = LPeripheral ->
  deps g' j = 0%nat \/ (deps g' j <= deps g j)%nat /\ exists n, get_node g j = Some n /\ n_level n = LPeripheral /\ n_done n' = n_done n /\ n_parsed n' = n_parsed n) -> PO g'.
Proof.
  intros P H j n' Hn Hl. destruct (H j n' Hn Hl) as [->|(L & n & Hg & Hl' & Hd & Hp)]; [split; [lia|congruence]|]. destruct (P j n Hg Hl') as [P1 P2]. rewrite Hd, Hp. split; [lia|]. intros K. apply P2. lia.
Qed.
Lemma len_sub {A} (q : A -> bool) l l' : (length (filter q l) <= length (filter q (l' ++ l)))%nat.
Proof. rewrite filter_app, app_length. lia. Qed.
Lemma len_remove (q : edge -> bool) p c l : (length (filter q (remove_first p c l)) <= length (filter q l))%nat.
Proof. induction l as [|e l IH]; [cbn; lia|]. cbn [remove_first]. destruct (Nat.eqb (e_src e) p && Nat.eqb (e_dst e) c); cbn [filter]; destruct (q e); cbn [length]; lia. Qed.
Lemma len_removed (q : edge -> bool) p c l : (exists t, In (p, c, t) l) -> (forall t, In (p, c, t) l -> q (p, c, t) = true) -> S (length (filter q (remove_first p c l))) = length (filter q l).
Proof.
  induction l as [|e l IH]; intros (t & H) K; [destruct H|]. cbn [remove_first]. destruct (Nat.eqb (e_src e) p && Nat.eqb (e_dst e) c) eqn:E.
  - destruct e as [[a0 b0] t0]. cbn [e_src e_dst fst snd] in E. apply andb_prop in E as [E1 E2]. apply Nat.eqb_eq in E1, E2. subst a0 b0. cbn [filter]. rewrite K by (now left). reflexivity.
  - assert (X : S (length (filter q (remove_first p c l))) = length (filter q l)). { apply IH; [|intros u Hu; apply K; now right]. destruct H as [->|H]; [|eauto]. cbn in E. rewrite !Nat.eqb_refl in E. discriminate. }
    cbn [filter]. destruct (q e); cbn [length]; lia.
Qed.
Lemma len_update (q : edge -> bool) p c l : q (p, c, CHILD_RESOLVED) = false -> (length (filter q (update_first p c CHILD_RESOLVED l)) <= length (filter q l))%nat.
Proof. intros Hq. induction l as [|e l IH]; [cbn; lia|]. cbn [update_first]. destruct (Nat.eqb (e_src e) p && Nat.eqb (e_dst e) c); cbn [filter]; [rewrite Hq|]; destruct (q e); cbn [length]; lia. Qed.
Lemma len_resolved j i cs : forall l, (length (filter (waits j) (set_resolved l i cs)) <= length (filter (waits j) l))%nat.
Proof.
  unfold set_resolved. induction cs as [|c cs IH]; intros l; [cbn; lia|]. cbn. etransitivity; [apply IH|]. apply len_update. unfold waits. cbn. apply andb_false_r.
Qed.
Lemma waits_none j l : (forall e, In e l -> e_dst e <> j \/ is_child (e_typ e) = true) -> filter (waits j) l = [].
Proof. induction l as [|e l IH]; intros H; [reflexivity|]. cbn. unfold waits at 1. rewrite IH by (intros x Hx; apply H; now right). destruct (H e (or_introl eq_refl)) as [K|K]; [apply Nat.eqb_neq in K; rewrite K|rewrite K, andb_false_r]; reflexivity. Qed.
(** the level of a node is that of its description *)
Definition LK (g : graph) : Prop := forall j n, get_node g j = Some n -> n_level n = level_of (n_parsed n).
Lemma po_copy g b i g1 m l0 : WF g -> CE g -> Replicated g b i g1 m -> lv g b l0 -> lv g i l0 -> l0 <> LDevice -> forall j n, get_node g1 j = Some n -> n_level n = LPeripheral -> get_node g j = Some n /\ deps g1 j = deps g j.
Proof.
  intros W C R Hb Hi H0 j n Hn Hl. assert (Hj : get_slot g1 j <> None) by (apply get_node_slot in Hn; congruence).
  destruct (rp_only _ _ _ _ _ R j Hj) as [Ho|Hm].
  - assert (Hg : get_node g j = Some n) by (destruct (get_slot g j) as [s|] eqn:Es; [|congruence]; assert (E := rp_keeps _ _ _ _ _ R j s Es); apply get_node_slot in Hn; apply get_node_slot; rewrite Hn in E; injection E as E; subst s; exact Es). split; [exact Hg|].
    destruct (rp_edges _ _ _ _ _ R) as (new & He & Hnew). unfold deps. rewrite He, filter_app, waits_none; [reflexivity|]. intros [[x y] t] Hin. left. cbn. intros ->.
    apply Hnew in Hin as [(k & c & _ & Hc & _)|[(k & Hc & _)|(_ & c & t0 & _ & Hc & _)]]; exact (Ho (cp_fresh _ _ _ _ _ R _ _ Hc)).
  - exfalso. apply in_map_iff in Hm as ((k & j') & E & Hm). cbn in E. subst j'. assert (D := cp_desc _ _ _ _ _ R _ _ Hm). destruct (rp_fresh _ _ _ _ _ R _ _ Hm) as [_ F]. apply get_node_slot in Hn. rewrite Hn in F. symmetry in F. apply get_node_slot in F.
    assert (K := proj1 (ce_below _ _ _ _ C Hb D) LPeripheral (ex_intro _ n (conj F Hl))). destruct K as [K|[_ K]]; [|discriminate]. destruct l0; cbn in K; try lia. congruence.
Qed.
Lemma deps_edge g a j t : In (a, j, t) (g_edges g) -> is_child t = false -> deps g j <> 0%nat.
Proof.
  intros H Ht E. unfold deps in E. assert (K : In (a, j, t) (filter (waits j) (g_edges g))) by (apply filter_In; split; [exact H|unfold waits; cbn; now rewrite Nat.eqb_refl, Ht]). destruct (filter (waits j) (g_edges g)); [destruct K|discriminate].
Qed.
(** what is processed no longer waits *)
Lemma po_prepared g i base bv g1 n : WF g -> CE g -> LK g -> PO g -> get_node g i = Some n -> n_parsed n <> PaDev -> BaseOf g i n base bv -> Prepared g i base g1 ->
  forall j n', get_node g1 j = Some n' -> n_level n' = LPeripheral -> get_node g j = Some n' /\ (deps g1 j <= deps g j)%nat /\ (j = i -> deps g1 j = 0%nat).
Proof.
  intros W C L P Hn Hd HB HP j n' Hj Hl. destruct HB as [(Hder & -> & _)|(path & b & nb & Hder & -> & Hbe & Hnb & Hlb & _)]; cbn in HP.
  - subst g1. split; [exact Hj|]. split; [lia|]. intros ->. destruct (P i n' Hj Hl) as [_ K]. replace n' with n in * by congruence. destruct (deps g i); [reflexivity|]. exfalso. now apply K.
  - destruct HP as (m & R). assert (Hi0 : n_level n <> LDevice). { rewrite (L _ _ Hn). intros E. apply Hd. destruct (n_parsed n) as [|?|[?|? ?]|?|?]; try discriminate E. reflexivity. }
    assert (E := po_copy (remove_edge g b i) b i g1 m (n_level n) (WF_remove_edge _ _ _ W) (ce_remove_edge _ _ _ C) R (ex_intro _ nb (conj Hnb Hlb)) (ex_intro _ n (conj Hn eq_refl)) Hi0 j n' Hj Hl). destruct E as [E1 E2]. split; [exact E1|]. rewrite E2. split; [apply len_remove|]. intros ->.
    assert (Eb : In (b, i, DERIVE) (g_edges g)).
    { unfold get_base_element_node in Hbe. destruct (find _ _) as [e|] eqn:Ef; [|discriminate]. injection Hbe as <-. apply find_some in Ef as [Hin Ht]. unfold in_edges in Hin. apply filter_In in Hin as [Hin Hdst]. apply Nat.eqb_eq in Hdst. destruct e as [[a c] t]. cbn in *. subst c. destruct t; try discriminate. exact Hin. }
    change (get_node g i = Some n') in E1. destruct (P i n' E1 Hl) as [K _]. assert (X : S (length (filter (waits i) (remove_first b i (g_edges g)))) = length (filter (waits i) (g_edges g))).
    { apply len_removed; [eauto|]. intros t Ht. unfold waits. cbn. rewrite Nat.eqb_refl. destruct (is_child t) eqn:Et; [|reflexivity]. exfalso. destruct (ce_child _ C _ _ _ Ht Et) as (la & lb & (na & Ha & La) & (nc & Hc & Lc) & Q). replace nc with n' in * by congruence. replace na with nb in * by congruence. replace n' with n in * by congruence. rewrite <- La, <- Lc, Hlb, Hl in Q. exact Q. }
    unfold deps in *. cbn [remove_edge g_edges]. destruct (n_done n'); lia.
Qed.
Lemma po_process g i ws g' : WF g -> CE g -> LK g -> PO g -> process_node g i = (ws, Ok g') -> PO g'.
Proof.
  intros W C L P H. apply process_node_inv in H as (n & base & bv & Hn & Hd & HB & H).
  assert (UPD : forall v t w g2, update_node g i base v t = (w, Ok g2) -> PO g2).
  { intros v t w g2 H2. apply (update_node_spec _ _ _ _ _ _ _ n W Hn) in H2 as (g1 & HP & _ & W' & Hs & He & _). assert (Q := po_prepared _ _ _ _ _ _ W C L P Hn Hd HB HP). set (n' := mk_node _ _ _ _ _ _) in *.
    assert (D2 : forall j, (deps g2 j <= deps g1 j)%nat) by (intros j; unfold deps; rewrite He; apply len_resolved). destruct (prepared_keeps _ _ _ _ W HP) as [W1 K1]. assert (Hn1 := ReplicateFacts.keeps_node _ _ _ _ K1 Hn).
    apply (po_step g); [exact P|]. intros j m Hj Hl. specialize (D2 j). apply get_node_slot in Hj. rewrite Hs in Hj. destruct (Nat.eqb_spec i j) as [->|Hne].
    - injection Hj as <-. left. destruct (Q j n Hn1 Hl) as (_ & _ & K). specialize (K eq_refl). lia.
    - apply get_node_slot in Hj. destruct (Q j m Hj Hl) as (E1 & K & _). right. split; [lia|]. exists m. auto. }
  destruct H as [(e & He & w & H)|(_ & w & H)].
  - assert (Hle : n_level n = LEnum) by (rewrite (L _ _ Hn), He; reflexivity).
    apply (process_evc_spec _ _ _ _ _ n W Hn) in H as [(_ & W' & ->)|(b & nb & e' & g1 & Eb & Hnb & _ & (m & R) & W' & Hn1 & ->)].
    + apply (po_step g); [exact P|]. intros j m Hj Hl. rewrite (set_node_node _ _ _ _ _ Hn) in Hj. destruct (Nat.eqb_spec i j) as [->|_]; [injection Hj as <-; cbn in Hl; congruence|]. right. split; [unfold deps; cbn; lia|]. exists m. auto.
    + set (n1 := mk_node (n_name n) (n_level n) (n_done n) (n_parsed nb) (n_processed n) (n_tmpl n)) in *. assert (W0 : WF (set_node g i n1)) by (eapply WF_set_node; eassumption).
      assert (C0 : CE (set_node g i n1)) by (apply (ce_set g i n n1 C Hn); reflexivity).
      assert (Hlb : n_level nb = LEnum). { destruct HB as [(_ & -> & _)|(path & b' & nb' & _ & Eb' & _ & Hnb' & Hl & _)]; [discriminate|]. rewrite Eb in Eb'. injection Eb' as <-. congruence. }
      assert (L1 : forall j q l, get_node g j = Some q -> n_level q = l -> lv (set_node g i n1) j l).
      { intros j q l1 Hq K. unfold lv. rewrite (set_node_node _ _ _ _ _ Hn). destruct (Nat.eqb_spec i j) as [->|_]; [|eauto]. exists n1. split; [reflexivity|]. cbn. congruence. }
      apply (po_step g); [exact P|]. intros j q Hj Hl. rewrite (set_node_node _ _ _ _ _ Hn1) in Hj. destruct (Nat.eqb_spec i j) as [->|Hne]; [injection Hj as <-; cbn in Hl; congruence|].
      destruct (po_copy (remove_edge (set_node g i n1) b i) b i g1 m LEnum (WF_remove_edge _ _ _ W0) (ce_remove_edge _ _ _ C0) R (L1 _ _ _ Hnb Hlb) (L1 _ _ _ Hn Hle) ltac:(discriminate) j q Hj Hl) as [E1 E2].
      change (get_node (set_node g i n1) j = Some q) in E1. rewrite (set_node_node _ _ _ _ _ Hn) in E1. rewrite (proj2 (Nat.eqb_neq i j) Hne) in E1. right. split; [|exists q; auto].
      etransitivity; [|apply (len_remove (waits j) b i)]. unfold deps in *. cbn [set_node g_edges] in *. rewrite E2. cbn [remove_edge set_node g_edges]. lia.
  - apply process_dimable_inv in H as (w1 & is_dim & names & displays & w' & v & vs & _ & _ & w'' & H). destruct is_dim; [|exact (UPD _ _ _ _ H)].
    apply (update_dim_node_spec _ _ _ _ _ _ _ n W Hn) in H as (g1 & xs & (w2 & H1) & W' & K & _ & Hxs & _ & Hx & Hj & He). assert (P1 := UPD _ _ _ _ H1). assert (W1 : WF g1) by (destruct (update_node_spec _ _ _ _ _ _ _ _ W Hn H1) as (? & _ & _ & X & _); exact X).
    assert (D : forall j, deps g' j = deps g1 j).
    { intros j. unfold deps. rewrite He, !filter_app. do 2 (rewrite waits_none by (intros z Hz; right; apply in_rev, in_map_iff in Hz as (? & <- & _); reflexivity)). reflexivity. }
    apply (po_step g1); [exact P1|]. intros j m Hm Hl. rewrite D. destruct (in_dec Nat.eq_dec j (map i_idx xs)) as [Hin|Hin].
    + left. apply in_map_iff in Hin as (x & <- & Hin). destruct (Hx x Hin) as [E _]. unfold deps. rewrite waits_none; [reflexivity|]. intros [[a c] t] Hz. left. cbn. intros ->. exact (proj2 (wf_edge _ W1 _ _ _ Hz) E).
    + right. split; [lia|]. exists m. split; [|auto]. apply get_node_slot in Hm. rewrite (Hj j Hin) in Hm. now apply get_node_slot.
Qed.
Lemma len_keep (q k : edge -> bool) l : (exists e, In e l /\ q e = true /\ k e = false) -> (S (length (filter q (filter k l))) <= length (filter q l))%nat.
Proof.
  induction l as [|x l IH]; intros (e & H & Hq & Hk); [destruct H|]. cbn [filter]. destruct H as [->|H].
  - rewrite Hq, Hk. cbn [length]. assert (X := filter_len q k l). lia.
  - assert (X := IH (ex_intro _ e (conj H (conj Hq Hk)))). destruct (k x); cbn [filter]; destruct (q x); cbn [length]; lia.
Qed.
Lemma po_resolve g h ws g' : PO g -> resolve_placeholder g h = (ws, Ok g') -> PO g'.
Proof.
  intros P H. apply resolve_ph_inv in H as [->|(parent & pn & child & n & path & b & _ & _ & _ & Hhc & Hp & Hc & HP & _ & ->)]; [exact P|].
  apply (po_step g); [exact P|]. intros j m Hj Hl. right. split.
  - unfold deps. cbn [g_edges remove_placeholder filter]. set (k := fun e => negb (Nat.eqb (e_src e) h) && negb (Nat.eqb (e_dst e) h)). unfold waits at 1. cbn [e_dst e_typ fst snd is_child negb]. rewrite andb_true_r. destruct (Nat.eqb_spec child j) as [->|_]; [|apply filter_len].
    cbn [length]. apply len_keep. exists (h, j, PLACEHOLDER). split; [exact Hhc|]. unfold waits, k. cbn. now rewrite !Nat.eqb_refl.
  - exists m. split; [|auto]. apply get_node_slot in Hj. change (get_slot (remove_placeholder g h) j = Some (NElem m)) in Hj. rewrite (remove_ph_slot _ _ _ Hp) in Hj. destruct (Nat.eqb h j); [discriminate|]. now apply get_node_slot.
Qed.
Lemma po_phs l : forall g ws g', PO g -> foldM resolve_placeholder g l = (ws, Ok g') -> PO g'.
Proof.
  induction l as [|h l IH]; intros g ws g' C H; cbn [foldM] in H; [apply ret_ok in H as [<- _]; exact C|]. apply bind_ok in H as (w1 & g1 & w2 & H1 & H2 & _). exact (IH _ _ _ (po_resolve _ _ _ _ C H1) H2).
Qed.
(** at the start an element has at most one reference *)
Definition D1 (g : graph) : Prop := forall j, is_elem g j = true -> (deps g j <= 1)%nat.
Lemma deps_cons g a b t f r ph j : deps (mk_graph f r ((a, b, t) :: g_edges g) ph) j = if waits j (a, b, t) then S (deps g j) else deps g j.
Proof. unfold deps. cbn [g_edges filter]. destruct (waits j (a, b, t)); reflexivity. Qed.
Lemma deps_eq g es j : g_edges g = es -> deps g j = length (filter (waits j) es).
Proof. now intros <-. Qed.
Definition DOk (f : graph -> M graph) (p : nat) : Prop := forall g ws g', Bu g -> D1 g -> is_elem g p = true -> f g = (ws, Ok g') -> D1 g'.
Lemma elem_same g g' j : get_slot g' j = get_slot g j -> is_elem g' j = is_elem g j.
Proof. unfold is_elem, get_node. now intros ->. Qed.
Lemma dk_element p t name lv e g ws r : is_child t = true -> Bu g -> D1 g -> is_elem g p = true -> build_element g p t name lv e (derived_of e) = (ws, Ok r) -> D1 (fst r).
Proof.
  intros Ht B D Hp H. unfold build_element in H. apply bind_ok in H as (w1 & gi & w2 & E & H & _). destruct (add_child_spec _ _ _ _ _ _ (proj1 B) (elem_slot _ _ Hp) E) as (W1 & K1 & Hf & Hs & Ho & He & _).
  assert (Z : forall j, deps (fst gi) j = deps g j) by (intros j; rewrite (deps_eq _ _ j He); cbn [filter]; unfold waits at 1; cbn [e_typ snd]; rewrite Ht, andb_false_r; reflexivity).
  assert (Z0 : deps (fst gi) (snd gi) = 0%nat) by (rewrite Z; unfold deps; rewrite waits_none; [reflexivity|]; intros [[a b] u] Hin; left; cbn; intros ->; destruct (wf_edge _ (proj1 B) _ _ _ Hin); congruence).
  assert (D' : D1 (fst gi)). { intros j Hj. destruct (Nat.eq_dec j (snd gi)) as [->|Hne]; [lia|]. rewrite Z. apply D. now rewrite <- (elem_same _ _ _ (Ho j Hne)). }
  destruct (derived_of e) as [path|]; [|apply ret_ok in H as [<- _]; exact D']. apply bind_ok in H as (w3 & g2 & w4 & E2 & H & _). apply ret_ok in H as [<- _]. cbn [fst].
  assert (Hs0 : get_slot (fst gi) (snd gi) <> None) by (intros X; rewrite X in Hs; discriminate Hs). destruct (add_ph_spec _ _ _ _ _ W1 Hs0 E2) as (i & _ & _ & Hfi & Hsi & Hoi & Hei & _). intros j Hj. assert (Hji : j <> i) by (intros ->; unfold is_elem, get_node in Hj; rewrite Hsi in Hj; discriminate Hj).
  rewrite (deps_eq _ _ j Hei). cbn [filter]. unfold waits at 1. cbn [e_dst e_typ fst snd is_child negb]. rewrite andb_true_r. assert (Q := D' j). rewrite <- (elem_same _ _ _ (Hoi j Hji)) in Q. specialize (Q Hj). destruct (Nat.eqb_spec (snd gi) j) as [<-|_]; [|exact Q].
  cbn [length]. unfold deps in Z0. lia.
Qed.
Lemma dk_list {A} (F : graph -> A -> M graph) p l : (forall x, In x l -> BOk (fun g => F g x) p /\ DOk (fun g => F g x) p) -> DOk (fun g => foldM F g l) p.
Proof.
  induction l as [|x l IH]; intros H g ws g' B D Hp E; cbn [foldM] in E; [apply ret_ok in E as [<- _]; exact D|]. apply bind_ok in E as (w1 & g1 & w2 & E1 & E & _). destruct (H x (or_introl eq_refl)) as [HB HD].
  destruct (proj2 (HB g B Hp) _ _ E1) as [B1 K1]. apply (IH (fun y Hy => H y (or_intror Hy)) g1 w2 g' B1 (HD _ _ _ B D Hp E1)); [now apply (ExpandShare.keeps_elem g)|exact E].
Qed.
Lemma dk_node {A} (F : nat -> graph -> A -> M graph) p t name lv e l : is_child t = true -> (forall c x, In x l -> BOk (fun g => F c g x) c /\ DOk (fun g => F c g x) c) -> DOk (fun g => gi <- build_element g p t name lv e (derived_of e) ;; foldM (F (snd gi)) (fst gi) l) p.
Proof.
  intros Ht H g ws g' B D Hp E. apply bind_ok in E as (w1 & gi & w2 & E1 & E & _). assert (D' := dk_element _ _ _ _ _ _ _ _ Ht B D Hp E1). destruct (proj2 (bok_element p t name lv e g B Hp) _ _ E1) as (B1 & _ & U1).
  exact (dk_list (F (snd gi)) (snd gi) l (fun x Hx => H _ x Hx) _ _ _ B1 D' U1 E).
Qed.
Lemma dk_evc p e : DOk (fun g => build_evc p g e) p.
Proof. intros g ws g' B D Hp E. unfold build_evc in E. apply bind_ok in E as (w1 & gi & w2 & E1 & E & _). apply ret_ok in E as [<- _]. exact (dk_element p CHILD_UNRESOLVED (sevc_name e) LEnum (PaEvc e) g _ _ eq_refl B D Hp E1). Qed.
Lemma dk_field p f : DOk (fun g => build_field p g f) p.
Proof. apply (dk_node build_evc p CHILD_UNRESOLVED (Some (sf_name f)) LField (PaFld f)); [reflexivity|]. intros c e _. split; [apply bok_evc|apply dk_evc]. Qed.
Lemma dk_rc x : forall p, DOk (fun g => build_rc p g x) p.
Proof.
  induction x as [r|c l IH] using svd_rc_ind'; intros p.
  - apply (dk_node build_field p CHILD_UNRESOLVED (Some (sr_name r)) LRegister (PaRc (SReg r))); [reflexivity|]. intros. split; [apply bok_field|apply dk_field].
  - rewrite Forall_forall in IH. apply (dk_node build_rc p CHILD_UNRESOLVED (Some (sc_name c)) LCluster (PaRc (SClu c l))); [reflexivity|]. intros k x Hx. split; [apply bok_rc|now apply IH].
Qed.
Lemma dk_construct ps ws g : construct_graph ps = (ws, Ok g) -> D1 g.
Proof.
  rewrite construct_eq. intros H. assert (K : DOk (fun g => foldM build_per g ps) 0%nat).
  { apply dk_list. intros p _. split; [apply (bok_node build_rc 0%nat CHILD_RESOLVED (Some (sp_name p)) LPeripheral (PaPer p)); intros; apply bok_rc|].
    apply (dk_node build_rc 0%nat CHILD_RESOLVED (Some (sp_name p)) LPeripheral (PaPer p)); [reflexivity|]. intros c x _. split; [apply bok_rc|apply dk_rc]. }
  apply (K start_graph ws g); [| |reflexivity|exact H].
  - split; [apply WF_start|]. split; [intros h path Hh; unfold start_graph, get_slot in Hh; cbn in Hh; destruct h as [|[|h]]; discriminate|].
    intros c n _ Hn Hd. unfold start_graph, get_node, get_slot in Hn. cbn in Hn. destruct c as [|[|c]]; try discriminate. injection Hn as <-. now destruct Hd.
  - intros j _. cbn. lia.
Qed.
Lemma dk_links l : forall g ws g', D1 g -> (forall h, In h l -> is_elem g h = false) -> foldM link_placeholder g l = (ws, Ok g') -> D1 g'.
Proof.
  induction l as [|h l IH]; intros g ws g' D Hl E; cbn [foldM] in E; [apply ret_ok in E as [<- _]; exact D|]. apply bind_ok in E as (w1 & g1 & w2 & E1 & E & _).
  assert (X : D1 g1 /\ g_slots g1 = g_slots g).
  { unfold link_placeholder in E1. apply bind_ok in E1 as (w3 & cp & w4 & _ & E1 & _). destruct cp as [p|]; [|apply ret_ok in E1 as [<- _]; auto]. apply add_edge_m_eq in E1 as (_ & -> & _). split; [|reflexivity].
    intros j Hj. change (is_elem g j = true) in Hj. rewrite deps_cons. unfold waits. cbn [e_dst e_typ fst snd is_child negb]. rewrite andb_true_r. destruct (Nat.eqb_spec h j) as [->|_]; [rewrite (Hl j (or_introl eq_refl)) in Hj; discriminate|now apply D]. }
  destruct X as [D' S']. apply (IH g1 w2 g' D'); [|exact E]. intros h' Hh'. rewrite <- (Hl h' (or_intror Hh')). apply elem_same. unfold get_slot. now rewrite S'.
Qed.
Lemma d1_start ps ws g : initialization ps = (ws, Ok g) -> D1 g.
Proof.
  intros H. unfold initialization in H. apply bind_ok in H as (w1 & g0 & w2 & H1 & H2 & _). apply (dk_links (g_phs g0) g0 w2 g (dk_construct _ _ _ H1)); [|exact H2].
  intros h Hh. destruct (proj2 (construct_ok ps) _ _ H1) as (W & _). destruct (wf_phs _ W h) as [Q _]. destruct (Q Hh) as (path & K). unfold is_elem, get_node. now rewrite K.
Qed.
Lemma po_start ps ws g : initialization ps = (ws, Ok g) -> PO g.
Proof.
  intros H. assert (D := d1_start _ _ _ H). destruct (st_initialization (DescribeFacts.loose ps) ws g H) as (KS & (_ & _ & E & ND) & _). intros j n Hn _.
  assert (He : is_elem g j = true) by (apply is_elem_node; eauto). assert (K : deps g j <> 0%nat -> n_done n = false /\ derived_of (n_parsed n) <> None).
  { intros K. unfold deps in K. destruct (filter (waits j) (g_edges g)) as [|[[a b] t] l] eqn:Ef; [now destruct K|]. assert (Hin : In (a, b, t) (filter (waits j) (g_edges g))) by (rewrite Ef; now left).
    apply filter_In in Hin as [Hin Hw]. unfold waits in Hw. cbn in Hw. apply andb_prop in Hw as [Hb Ht]. apply Nat.eqb_eq in Hb. subst b. destruct t; try discriminate Ht; [|destruct (ND _ _ Hin)].
    destruct (w_ph _ E _ _ Hin) as [(path & m & _ & Hm & Hd & Hp)|(_ & path & c & Hs & _)]; [|apply get_node_slot in Hn; congruence]. rewrite Hn in Hm. injection Hm as <-. rewrite Hp. split; [exact Hd|discriminate]. }
  specialize (D j He). split; [|intros Q; apply K; exact Q]. destruct (deps g j) as [|k]; [lia|]. destruct (K (fun Q => O_S _ (eq_sym Q))) as [-> _]. exact D.
Qed.
