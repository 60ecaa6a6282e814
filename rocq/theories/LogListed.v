(** * LogListed: the elements listed in the log (SpecLog.v). *)
From Coq Require Import Relations Permutation.
From Verif Require Import Base PyStr PyInt Types ElemModel FinalModel ResolveModel GraphFacts ReplicateFacts ResolveWF TopoFacts LogModel SpecLog LogFacts.

(** ** One element processed *)
Record Step1 (g : graph) (i : nat) (g' : graph) : Prop := {
  st_wf : WF g';
  st_keeps : forall j n, j <> i -> get_node g j = Some n -> get_node g' j = Some n;
  st_done : exists n, get_node g' i = Some n /\ n_done n = true }.
Lemma keeps_node g g' j n : keeps g g' -> get_node g j = Some n -> get_node g' j = Some n.
Proof. intros K H. apply get_node_slot in H. apply get_node_slot, K, H. Qed.
Lemma set_node_node g i m n j : get_node g i = Some m -> get_node (set_node g i n) j = if Nat.eqb i j then Some n else get_node g j.
Proof. intros H. unfold get_node at 1. rewrite (set_node_slot _ _ _ _ H). destruct (Nat.eqb i j); reflexivity. Qed.
Lemma update_step g i base v t ws g' n : WF g -> get_node g i = Some n -> update_node g i base v t = (ws, Ok g') -> Step1 g i g'.
Proof.
  intros W Hn H. apply (update_node_spec _ _ _ _ _ _ _ n W Hn) in H as (g1 & HP & _ & W' & Hs & _). destruct (prepared_keeps _ _ _ _ W HP) as [_ K]. split; [exact W'| |].
  - intros j m Hj Hm. apply get_node_slot. rewrite Hs. apply not_eq_sym, Nat.eqb_neq in Hj. rewrite Hj. apply K. now apply get_node_slot.
  - eexists. split; [apply get_node_slot; rewrite Hs, Nat.eqb_refl; reflexivity|reflexivity].
Qed.
Lemma process_step g i ws g' : WF g -> process_node g i = (ws, Ok g') -> Step1 g i g'.
Proof.
  intros W H. apply process_node_inv in H as (n & base & bv & Hn & _ & _ & [(e & _ & w & H)|(_ & w & H)]).
  - apply (process_evc_spec _ _ _ _ _ n W Hn) in H as [(_ & W' & ->)|(b & nb & e' & g1 & _ & _ & _ & (m & R) & W' & Hn1 & ->)].
    + split; [exact W'| |].
      * intros j q Hj Hq. rewrite (set_node_node _ _ _ _ _ Hn). apply not_eq_sym, Nat.eqb_neq in Hj. now rewrite Hj.
      * eexists. rewrite (set_node_node _ _ _ _ _ Hn), Nat.eqb_refl. split; reflexivity.
    + split; [exact W'| |].
      * intros j q Hj Hq. rewrite (set_node_node _ _ _ _ _ Hn1). assert (Hj' := Hj). apply not_eq_sym, Nat.eqb_neq in Hj'. rewrite Hj'. apply (keeps_node _ _ _ _ (rp_keeps _ _ _ _ _ R)).
        change (get_node (remove_edge ?a ?b ?c) j) with (get_node a j). rewrite (set_node_node _ _ _ _ _ Hn), Hj'. exact Hq.
      * eexists. rewrite (set_node_node _ _ _ _ _ Hn1), Nat.eqb_refl. split; reflexivity.
  - apply process_dimable_inv in H as (w1 & is_dim & names & displays & w' & v & vs & _ & _ & w'' & H). destruct is_dim.
    + apply (update_dim_node_spec _ _ _ _ _ _ _ n W Hn) in H as (g1 & xs & (w2 & H1) & W' & K & _). destruct (update_step _ _ _ _ _ _ _ _ W Hn H1) as [W1 K1 (m & D1 & D2)]. split; [exact W'| |].
      * intros j q Hj Hq. exact (keeps_node _ _ _ _ K (K1 _ _ Hj Hq)).
      * exists m. split; [exact (keeps_node _ _ _ _ K D1)|exact D2].
    + exact (update_step _ _ _ _ _ _ _ _ W Hn H).
Qed.
(** ** One round *)
Lemma nodes_step l : forall g ws g', WF g -> NoDup l -> foldM process_node g l = (ws, Ok g') ->
  WF g' /\ (forall j n, ~ In j l -> get_node g j = Some n -> get_node g' j = Some n) /\ (forall i, In i l -> exists n, get_node g' i = Some n /\ n_done n = true).
Proof.
  induction l as [|i l IH]; intros g ws g' W ND H; cbn [foldM] in H.
  - apply ret_ok in H as [<- _]. split; [exact W|]. split; [auto|]. intros i [].
  - apply bind_ok in H as (w1 & g1 & w2 & H1 & H2 & _). inversion ND as [|? ? Ni ND']. subst. destruct (process_step _ _ _ _ W H1) as [W1 K1 (n1 & D1 & D2)]. destruct (IH _ _ _ W1 ND' H2) as (W2 & K2 & D). split; [exact W2|]. split.
    + intros j n Hj Hn. apply K2; [intros E; apply Hj; now right|]. apply K1; [intros ->; apply Hj; now left|exact Hn].
    + intros j [<-|Hj]; [exists n1; auto|auto].
Qed.
Lemma refs_step g l paths g' : WF g -> References g l paths g' -> WF g' /\ forall i n, get_node g i = Some n <-> get_node g' i = Some n.
Proof.
  intros W H. induction H as [g|g p l paths g1 ws H _ IH|g p l path paths g1 g2 ws _ H _ _ IH]; [split; [exact W|tauto]|auto|].
  destruct (resolve_ph_spec _ _ _ _ W H) as (W1 & K1 & K2). destruct (IH W1) as [W2 K]. split; [exact W2|]. intros i n. rewrite <- K. split; auto.
Qed.
(** ** The whole run *)
Lemma run_listed g rs g' : Run g rs g' -> WF g -> NoDup (listed rs) /\ WF g' /\
  (forall i n, get_node g i = Some n -> n_done n = true -> ~ In i (listed rs) /\ get_node g' i = Some n) /\
  (forall i n, get_node g i = Some n -> n_done n = false -> ~ In i (listed rs) -> get_node g' i = Some n).
Proof.
  induction 1 as [g paths g1 R E|g paths g1 nodes ws g2 rs g' R E Ne F _ IH]; intros W; destruct (refs_step _ _ _ _ W R) as [W1 K]; unfold listed; cbn [flat_map rd_nodes List.app].
  - split; [constructor|]. split; [exact W1|]. split; [intros i n Hn Hd; split; [intros []|now apply K]|]. intros i n Hn _ _. now apply K.
  - destruct (topological_sorted_spec g1 (find_processable g1) W1) as (ND & _ & Hin). rewrite E in ND, Hin. destruct (nodes_step _ _ _ _ W1 ND F) as (W2 & K2 & D2). destruct (IH W2) as (ND' & W' & HD & HU). unfold listed in *.
    assert (Hdone : forall i n, get_node g i = Some n -> n_done n = true -> ~ In i nodes).
    { intros i n Hn Hd Hi. apply Hin in Hi as [_ Hi]. unfold unprocessed in Hi. apply K in Hn. rewrite Hn, Hd in Hi. discriminate Hi. }
    split; [|split; [exact W'|split]].
    + apply NoDup_app_iff. split; [exact ND|]. split; [exact ND'|]. intros i Hi. destruct (D2 i Hi) as (n & Hn & Hd). exact (proj1 (HD i n Hn Hd)).
    + intros i n Hn Hd. assert (Hni := Hdone i n Hn Hd). apply K in Hn. destruct (HD i n (K2 _ _ Hni Hn) Hd) as [H1 H2]. split; [|exact H2]. rewrite in_app_iff. tauto.
    + intros i n Hn Hd Hi. rewrite in_app_iff in Hi. apply K in Hn. apply (HU i n); [apply K2; [tauto|exact Hn]|exact Hd|tauto].
Qed.
(** the line shown for an element of the first graph is the one it has there *)
Definition label_of (n : node) (i : nat) : string := element_line_text i (mk_element (n_name n) (n_level n) (derived_of (n_parsed n))).
Lemma label_at g i n : get_node g i = Some n -> element_label g i = label_of n i.
Proof. intros H. unfold element_label, label_of, element_line_text. now rewrite H. Qed.
Lemma run_labels g rs g' : Run g rs g' -> WF g -> listed_lines rs = map (fun il => snd il) (combine (listed rs) (listed_lines rs)) /\ length (listed rs) = length (listed_lines rs) /\
  forall i n l, get_node g i = Some n -> n_done n = false -> In (i, l) (combine (listed rs) (listed_lines rs)) -> l = label_of n i.
Proof.
  assert (KC : forall (A B : Type) (l1 l1' : list A) (l2 l2' : list B), length l1 = length l2 -> combine (l1 ++ l1') (l2 ++ l2') = combine l1 l2 ++ combine l1' l2').
  { intros A B l1 l1'. induction l1 as [|a l1 IH]; intros [|b l2] l2' H; try discriminate H; [reflexivity|]. cbn. f_equal. apply IH. now injection H. }
  assert (KS : forall (A B : Type) (l1 : list A) (l2 : list B), length l1 = length l2 -> l2 = map snd (combine l1 l2)).
  { intros A B l1. induction l1 as [|a l1 IH]; intros [|b l2] H; try discriminate H; [reflexivity|]. cbn. f_equal. apply IH. now injection H. }
  assert (KL : forall rs, length (listed rs) = length (listed_lines rs)).
  { intros q. unfold listed, listed_lines. induction q as [|r q IH]; [reflexivity|]. cbn [flat_map]. rewrite !app_length, map_length, IH. reflexivity. }
  intros HR W. split; [apply KS, KL|]. split; [apply KL|]. revert W.
  induction HR as [g paths g1 R E|g paths g1 nodes ws g2 rs g' R E Ne F HR IH]; intros W i n l Hn Hd Hl; destruct (refs_step _ _ _ _ W R) as [W1 K].
  - destruct Hl.
  - unfold listed, listed_lines in Hl. cbn [flat_map rd_nodes rd_graph] in Hl. rewrite KC in Hl by now rewrite map_length. destruct (topological_sorted_spec g1 (find_processable g1) W1) as (ND & _ & _). rewrite E in ND. destruct (nodes_step _ _ _ _ W1 ND F) as (W2 & K2 & D2).
    assert (Hn1 : get_node g1 i = Some n) by now apply K. apply in_app_iff in Hl as [Hl|Hl].
    + assert (Hc : forall q, In (i, l) (combine q (map (element_label g1) q)) -> l = element_label g1 i) by (induction q as [|x q IHq]; [intros []|intros [He|He]; [injection He as -> <-; reflexivity|exact (IHq He)]]).
      rewrite (Hc _ Hl). now apply label_at.
    + assert (Hi : ~ In i nodes). { intros Hi. destruct (D2 i Hi) as (m & Hm & Hdm). destruct (run_listed _ _ _ HR W2) as (_ & _ & HD & _). apply (proj1 (HD i m Hm Hdm)). exact (in_combine_l _ _ _ _ Hl). }
      exact (IH W2 i n l (K2 _ _ Hi Hn1) Hd Hl).
Qed.

(** ** The elements of the first graph *)
Definition el (g : graph) (i : nat) : element :=
  match get_node g i with Some n => mk_element (n_name n) (n_level n) (derived_of (n_parsed n)) | None => mk_element None LDevice None end.
Definition Todo (g : graph) (ids : list nat) (l : list element) : Prop :=
  NoDup ids /\ (forall i, In i ids <-> unprocessed g i = true) /\ map (el g) ids = l.
Lemma unp_slot g g' i : get_slot g i = get_slot g' i -> unprocessed g i = unprocessed g' i /\ el g i = el g' i.
Proof. intros H. unfold unprocessed, el, get_node. now rewrite H. Qed.
Lemma todo_ext g g' ids l : (forall i, get_slot g i = get_slot g' i) -> Todo g ids l -> Todo g' ids l.
Proof.
  intros H (A & B & C). split; [exact A|]. split; [intros i; rewrite B; destruct (unp_slot _ _ _ (H i)) as [-> _]; tauto|]. rewrite <- C. apply map_ext. intros i. symmetry. apply (unp_slot _ _ _ (H i)).
Qed.
Lemma todo_elem g g' ids l i n : n_done n = false -> get_slot g i = None -> get_slot g' i = Some (NElem n) -> (forall j, j <> i -> get_slot g' j = get_slot g j) -> Todo g ids l ->
  Todo g' (ids ++ [i]) (l ++ [mk_element (n_name n) (n_level n) (derived_of (n_parsed n))]).
Proof.
  intros Hd H0 H1 H2 (A & B & C). assert (Hi : ~ In i ids). { rewrite B. unfold unprocessed, get_node. rewrite H0. discriminate. } split.
  - apply NoDup_app_iff. split; [exact A|]. split; [constructor; [intros []|constructor]|]. intros x Hx [->|[]]. contradiction.
  - split.
    + intros j. rewrite in_app_iff, B. cbn [In]. destruct (Nat.eq_dec j i) as [->|Hj].
      * unfold unprocessed at 2. unfold get_node. rewrite H1, Hd. cbn. tauto.
      * rewrite (proj1 (unp_slot _ _ _ (H2 j Hj))). split; [intros [K|[K|[]]]; [exact K|congruence]|tauto].
    + rewrite map_app, <- C. f_equal.
      * apply map_ext_in. intros j Hj. apply (unp_slot _ _ _). apply H2. intros ->. contradiction.
      * cbn. unfold el, get_node. now rewrite H1.
Qed.
Lemma todo_ph g g' ids l i path : get_slot g i = None -> get_slot g' i = Some (NPh path) -> (forall j, j <> i -> get_slot g' j = get_slot g j) -> Todo g ids l -> Todo g' ids l.
Proof.
  intros H0 H1 H2 (A & B & C). assert (K : forall j, unprocessed g' j = unprocessed g j /\ el g' j = el g j).
  { intros j. destruct (Nat.eq_dec j i) as [->|Hj]; [unfold unprocessed, el, get_node; now rewrite H0, H1|apply unp_slot, H2, Hj]. }
  split; [exact A|]. split; [intros j; rewrite B, (proj1 (K j)); tauto|]. rewrite <- C. apply map_ext. intros j. apply K.
Qed.
Definition Adds (f : graph -> M graph) (p : nat) (es : list element) : Prop := forall g ws g' ids l, WF g -> get_slot g p <> None -> Todo g ids l -> f g = (ws, Ok g') ->
  WF g' /\ keeps g g' /\ exists new, Todo g' (ids ++ new) (l ++ es).
Lemma build_element_adds g p t name lv pa ws r ids l : WF g -> get_slot g p <> None -> Todo g ids l -> build_element g p t name lv pa (derived_of pa) = (ws, Ok r) ->
  WF (fst r) /\ keeps g (fst r) /\ get_slot (fst r) (snd r) <> None /\ exists i, Todo (fst r) (ids ++ [i]) (l ++ [mk_element name lv (derived_of pa)]).
Proof.
  intros W Hp HT H. destruct (build_element_keeps _ _ _ _ _ _ _ _ _ W Hp H) as (W' & K' & Hs). split; [exact W'|]. split; [exact K'|]. split; [congruence|].
  unfold build_element in H. apply bind_ok in H as (w1 & gi & w2 & H1 & H2 & _). destruct (add_child_spec _ _ _ _ _ _ W Hp H1) as (W1 & K1 & F0 & F1 & F2 & _).
  assert (T1 := todo_elem g (fst gi) ids l (snd gi) (mk_node name lv false pa None false) eq_refl F0 F1 F2 HT). cbn [n_name n_level n_parsed] in T1. exists (snd gi). destruct (derived_of pa) as [path|].
  - apply bind_ok in H2 as (w3 & g2 & w4 & H3 & H4 & _). apply ret_ok in H4 as [<- _]. cbn [fst snd] in *. assert (Hc : get_slot (fst gi) (snd gi) <> None) by congruence.
    destruct (add_ph_spec _ _ _ _ _ W1 Hc H3) as (i & _ & _ & P0 & P1 & P2 & _). exact (todo_ph _ _ _ _ _ _ P0 P1 P2 T1).
  - apply ret_ok in H2 as [<- _]. exact T1.
Qed.
Lemma fold_adds {A} (f : graph -> A -> M graph) p (es : A -> list element) xs : (forall x, In x xs -> Adds (fun g => f g x) p (es x)) -> Adds (fun g => foldM f g xs) p (flat_map es xs).
Proof.
  induction xs as [|x xs IH]; intros HF g ws g' ids l W Hp HT H; cbn [foldM flat_map] in *.
  - apply ret_ok in H as [<- _]. split; [exact W|]. split; [apply keeps_refl|]. exists []. now rewrite !app_nil_r.
  - apply bind_ok in H as (w1 & g1 & w2 & H1 & H2 & _). destruct (HF x (or_introl eq_refl) _ _ _ _ _ W Hp HT H1) as (W1 & K1 & n1 & T1).
    assert (Hp1 : get_slot g1 p <> None). { destruct (get_slot g p) as [s|] eqn:Es; [|congruence]. rewrite (K1 _ _ Es). discriminate. }
    destruct (IH (fun y Hy => HF y (or_intror Hy)) _ _ _ _ _ W1 Hp1 T1 H2) as (W2 & K2 & n2 & T2). split; [exact W2|]. split; [exact (keeps_trans _ _ _ K1 K2)|]. exists (n1 ++ n2). now rewrite !app_assoc.
Qed.
Lemma node_adds {A} (f : nat -> graph -> A -> M graph) p t name lv pa (es : A -> list element) xs (g0 := fun g => gi <- build_element g p t name lv pa (derived_of pa) ;; foldM (f (snd gi)) (fst gi) xs) :
  (forall x q, In x xs -> Adds (fun g => f q g x) q (es x)) -> Adds g0 p (mk_element name lv (derived_of pa) :: flat_map es xs).
Proof.
  intros HF g ws g' ids l W Hp HT H. unfold g0 in H. apply bind_ok in H as (w1 & gi & w2 & H1 & H2 & _). destruct (build_element_adds _ _ _ _ _ _ _ _ _ _ W Hp HT H1) as (W1 & K1 & Hs & i & T1).
  destruct (fold_adds (f (snd gi)) (snd gi) es xs (fun x Hx => HF x _ Hx) _ _ _ _ _ W1 Hs T1 H2) as (W2 & K2 & new & T2). split; [exact W2|]. split; [exact (keeps_trans _ _ _ K1 K2)|]. exists (i :: new). rewrite <- !app_assoc in T2. exact T2.
Qed.
Lemma evc_adds p e : Adds (fun g => build_evc p g e) p [mk_element (sevc_name e) LEnum (sevc_derived e)].
Proof.
  intros g ws g' ids l W Hp HT H. unfold build_evc in H. apply bind_ok in H as (w1 & gi & w2 & H1 & H2 & _). apply ret_ok in H2 as [<- _]. change (sevc_derived e) with (derived_of (PaEvc e)) in *.
  destruct (build_element_adds _ _ _ _ _ _ _ _ _ _ W Hp HT H1) as (W1 & K1 & _ & i & T1). eauto.
Qed.
Lemma flat_map_single {A B} (f : A -> B) l : flat_map (fun x => [f x]) l = map f l.
Proof. induction l as [|x l IH]; [reflexivity|]. cbn. now rewrite IH. Qed.
Lemma field_adds p f : Adds (fun g => build_field p g f) p (field_elements f).
Proof. unfold field_elements. rewrite <- flat_map_single. exact (node_adds build_evc p CHILD_UNRESOLVED _ _ (PaFld f) _ _ (fun e q _ => evc_adds q e)). Qed.
Lemma rc_adds x : forall p, Adds (fun g => build_rc p g x) p (rc_elements x).
Proof.
  induction x as [r|c l IH] using svd_rc_ind'; intros p; cbn [rc_elements].
  - exact (node_adds build_field p CHILD_UNRESOLVED _ _ (PaRc (SReg r)) _ _ (fun f q _ => field_adds q f)).
  - rewrite Forall_forall in IH. exact (node_adds build_rc p CHILD_UNRESOLVED _ _ (PaRc (SClu c l)) _ _ (fun x q Hx => IH x Hx q)).
Qed.
Lemma construct_todo ps ws g : construct_graph ps = (ws, Ok g) -> WF g /\ exists ids, Todo g ids (elements ps).
Proof.
  rewrite construct_eq. intros H. assert (HT : Todo start_graph [] []).
  { split; [constructor|]. split; [|reflexivity]. intros i. split; [intros []|]. destruct i as [|[|i]]; cbn; discriminate. }
  assert (H0 : get_slot start_graph 0%nat <> None) by discriminate.
  destruct (fold_adds build_per 0%nat (fun p => mk_element (Some (sp_name p)) LPeripheral (sp_derived p) :: flat_map rc_elements (sp_rcs p)) ps
    (fun p _ => node_adds build_rc 0%nat CHILD_RESOLVED _ _ (PaPer p) _ _ (fun x q _ => rc_adds x q)) _ _ _ _ _ WF_start H0 HT H) as (W & _ & new & T). eauto.
Qed.
Lemma link_slots l : forall g ws g', foldM link_placeholder g l = (ws, Ok g') -> g_slots g' = g_slots g.
Proof.
  induction l as [|p l IH]; intros g ws g' H; cbn [foldM] in H; [apply ret_ok in H as [<- _]; reflexivity|]. apply bind_ok in H as (w1 & g1 & w2 & H1 & H2 & _). rewrite (IH _ _ _ H2).
  unfold link_placeholder in H1. apply bind_ok in H1 as (w3 & cp & w4 & _ & H1 & _). destruct cp as [q|]; [|apply ret_ok in H1 as [<- _]; reflexivity].
  apply add_edge_m_eq in H1 as (_ & -> & _). reflexivity.
Qed.
Lemma link_todo ps w1 g w2 g0 : construct_graph ps = (w1, Ok g) -> foldM link_placeholder g (g_phs g) = (w2, Ok g0) -> WF g0 /\ exists ids, Todo g0 ids (elements ps).
Proof.
  intros H1 H2. destruct (construct_todo _ _ _ H1) as (_ & ids & T). split.
  - assert (K : initialization ps = (w1 ++ w2, Ok g0)) by (unfold initialization, bind; now rewrite H1, H2). apply init_grows in K. apply K.
  - exists ids. apply (todo_ext g); [|exact T]. intros i. unfold get_slot. now rewrite (link_slots _ _ _ _ H2).
Qed.

(** ** The lines of the log *)
Lemma lines_perm g rs g' ids es : Run g rs g' -> WF g -> unprocessed_nodes g' = [] -> Todo g ids es ->
  exists extra, Permutation (listed_lines rs) (map (fun ie => element_line_text (fst ie) (snd ie)) (combine ids es) ++ extra) /\ (incl (listed rs) ids -> extra = []).
Proof.
  intros HR W HU (ND & Hin & Hes). destruct (run_listed _ _ _ HR W) as (NL & W' & HD & HK). destruct (run_labels _ _ _ HR W) as (HL & Hlen & Hlab).
  set (lk := fun i => match find (fun il : nat * string => Nat.eqb (fst il) i) (combine (listed rs) (listed_lines rs)) with Some il => snd il | None => ""%string end).
  assert (E1 : listed_lines rs = map lk (listed rs)).
  { unfold lk. clear -NL Hlen. revert Hlen NL. generalize (listed_lines rs). induction (listed rs) as [|i l IH]; intros [|t ts] Hl ND; try discriminate Hl; [reflexivity|]. cbn [map combine find fst]. rewrite Nat.eqb_refl. f_equal.
    inversion ND as [|? ? Ni ND']. subst. injection Hl as Hl. rewrite (IH ts Hl ND') at 1. apply map_ext_in. intros j Hj. assert (Hij : Nat.eqb i j = false) by (apply Nat.eqb_neq; intros ->; contradiction). now rewrite Hij. }
  assert (Hsub : incl ids (listed rs)).
  { intros i Hi. apply Hin in Hi. unfold unprocessed in Hi. destruct (get_node g i) as [n|] eqn:En; [|discriminate Hi]. destruct (n_done n) eqn:Ed; [discriminate Hi|].
    destruct (in_dec Nat.eq_dec i (listed rs)) as [K|K]; [exact K|exfalso]. assert (Hn := HK i n En Ed K). assert (Hu : In i (unprocessed_nodes g')).
    { unfold unprocessed_nodes. apply filter_In. split; [apply node_indices_In; apply get_node_slot in Hn; congruence|]. unfold unprocessed. now rewrite Hn, Ed. } rewrite HU in Hu. destruct Hu. }
  assert (E2 : map lk ids = map (fun ie => element_line_text (fst ie) (snd ie)) (combine ids es)).
  { rewrite <- Hes. assert (K : forall l, incl l ids -> map lk l = map (fun ie => element_line_text (fst ie) (snd ie)) (combine l (map (el g) l))).
    { induction l as [|i l IH]; intros Hl; [reflexivity|]. cbn [map combine fst snd]. f_equal; [|apply IH; intros x Hx; apply Hl; now right].
      assert (Hi := Hl i (or_introl eq_refl)). assert (Hu := proj1 (Hin i) Hi). unfold unprocessed in Hu. unfold el. destruct (get_node g i) as [n|] eqn:En; [|discriminate Hu]. destruct (n_done n) eqn:Ed; [discriminate Hu|].
      apply (Hlab i n _ En Ed). unfold lk. assert (Hi' := Hsub i Hi). destruct (find (fun il : nat * string => Nat.eqb (fst il) i) (combine (listed rs) (listed_lines rs))) as [[j t]|] eqn:Ef.
      - apply find_some in Ef as [F1 F2]. apply Nat.eqb_eq in F2. cbn [fst] in F2. subst j. exact F1.
      - exfalso. assert (Hm : In i (map fst (combine (listed rs) (listed_lines rs)))).
        { clear -Hlen Hi'. revert Hlen Hi'. generalize (listed_lines rs). induction (listed rs) as [|x q IHq]; intros [|t ts] Hl Hi'; try discriminate Hl; [destruct Hi'|]. destruct Hi' as [->|Hi']; [now left|right; apply IHq; [now injection Hl|exact Hi']]. }
        apply in_map_iff in Hm as ((j & t) & E & Hm). cbn in E. subst j. apply (find_none _ _ Ef) in Hm. cbn in Hm. rewrite Nat.eqb_refl in Hm. discriminate Hm. }
    apply K. intros x Hx. exact Hx. }
  set (rest := filter (fun i => negb (mem_nat i ids)) (listed rs)).
  assert (HP : Permutation (listed rs) (ids ++ rest)).
  { apply NoDup_Permutation; [exact NL| |].
    - apply NoDup_app_iff. split; [exact ND|]. split; [apply NoDup_filter; exact NL|]. intros x Hx Hr. apply filter_In in Hr as [_ Hr]. apply negb_true_iff in Hr. apply mem_nat_In in Hx. congruence.
    - intros x. rewrite in_app_iff. unfold rest. rewrite filter_In, negb_true_iff. destruct (mem_nat x ids) eqn:Em.
      + apply mem_nat_In in Em. split; [auto|intros _; now apply Hsub].
      + split; [intros H; now right|intros [H|[H _]]; [now apply Hsub|exact H]]. }
  exists (map lk rest). split; [rewrite E1, <- E2, <- map_app; now apply Permutation_map|]. intros Hi. replace rest with (@nil nat); [reflexivity|]. symmetry. unfold rest. clear -Hi.
  induction (listed rs) as [|x q IH]; [reflexivity|]. cbn [filter]. assert (Hx := Hi x (or_introl eq_refl)). apply mem_nat_In in Hx. rewrite Hx. cbn [negb]. apply IH. intros y Hy. apply Hi. now right.
Qed.

(** ** Without derivedFrom nothing else is listed *)
Definition Free (g : graph) : Prop := forall i n, get_node g i = Some n -> n_done n = false -> derived_of (n_parsed n) = None.
Lemma free_step g i ws g' : WF g -> Free g -> unprocessed g i = true -> process_node g i = (ws, Ok g') -> forall j n, get_node g' j = Some n -> n_done n = false -> get_node g j = Some n.
Proof.
  intros W HF Hu H. assert (W' := process_node_WF _ _ _ _ W H). apply process_node_inv in H as (n & base & bv & Hn & _ & HB & H). unfold unprocessed in Hu. rewrite Hn in Hu. apply negb_true_iff in Hu.
  assert (Eb : base = None). { destruct HB as [(_ & -> & _)|(path & b & nb & E & _)]; [reflexivity|]. rewrite (HF _ _ Hn Hu) in E. discriminate E. } subst base. clear HB.
  intros j m Hm Hd. destruct H as [(e & _ & w & H)|(_ & w & H)].
  - apply (process_evc_spec _ _ _ _ _ n W Hn) in H as [(_ & _ & ->)|(b & nb & e' & g1 & E & _)]; [|discriminate E]. rewrite (set_node_node _ _ _ _ _ Hn) in Hm. destruct (Nat.eqb i j); [injection Hm as <-; discriminate Hd|exact Hm].
  - assert (KU : forall v t w g1, update_node g i None v t = (w, Ok g1) -> forall j m, get_node g1 j = Some m -> n_done m = false -> get_node g j = Some m).
    { clear j m Hm Hd. intros v t w0 g1 K j m Hm Hd. apply (update_node_spec _ _ _ _ _ _ _ n W Hn) in K as (g2 & -> & _ & _ & Hs & _). apply get_node_slot in Hm. rewrite Hs in Hm. destruct (Nat.eqb i j); [injection Hm as <-; discriminate Hd|now apply get_node_slot]. }
    apply process_dimable_inv in H as (w1 & is_dim & names & displays & w' & v & vs & _ & _ & w'' & H). destruct is_dim; [|exact (KU _ _ _ _ H j m Hm Hd)].
    apply (update_dim_node_spec _ _ _ _ _ _ _ n W Hn) in H as (g1 & xs & (w2 & H1) & _ & _ & _ & _ & _ & HX & HN & _). apply (KU _ _ _ _ H1 j m); [|exact Hd]. apply get_node_slot in Hm. destruct (in_dec Nat.eq_dec j (map i_idx xs)) as [K|K].
    + apply in_map_iff in K as (x & <- & Kx). destruct (HX x Kx) as [_ Hx]. rewrite Hx in Hm. injection Hm as <-. discriminate Hd.
    + rewrite (HN j K) in Hm. now apply get_node_slot.
Qed.
Lemma free_nodes l : forall g ws g', WF g -> Free g -> NoDup l -> (forall i, In i l -> unprocessed g i = true) -> foldM process_node g l = (ws, Ok g') ->
  forall j n, get_node g' j = Some n -> n_done n = false -> get_node g j = Some n.
Proof.
  induction l as [|i l IH]; intros g ws g' W HF ND Hl H j n Hn Hd; cbn [foldM] in H; [apply ret_ok in H as [<- _]; exact Hn|].
  apply bind_ok in H as (w1 & g1 & w2 & H1 & H2 & _). inversion ND as [|? ? Ni ND']. subst. assert (K := free_step _ _ _ _ W HF (Hl i (or_introl eq_refl)) H1). assert (S1 := process_step _ _ _ _ W H1).
  apply K; [|exact Hd]. eapply (IH g1); [exact (st_wf _ _ _ S1)| |exact ND'| |exact H2|exact Hn|exact Hd].
  - intros q m Hm Hdm. apply (HF q m); [exact (K q m Hm Hdm)|exact Hdm].
  - intros x Hx. assert (Hu := Hl x (or_intror Hx)). unfold unprocessed in *. destruct (get_node g x) as [m|] eqn:Em; [|discriminate Hu]. rewrite (st_keeps _ _ _ S1 x m); [exact Hu|intros ->; contradiction|exact Em].
Qed.
Lemma free_run g rs g' : Run g rs g' -> WF g -> Free g -> forall i, In i (listed rs) -> unprocessed g i = true.
Proof.
  induction 1 as [g paths g1 R E|g paths g1 nodes ws g2 rs g' R E Ne F _ IH]; intros W HF i Hi; destruct (refs_step _ _ _ _ W R) as [W1 K]; unfold listed in *; cbn [flat_map rd_nodes List.app] in Hi; [destruct Hi|].
  destruct (topological_sorted_spec g1 (find_processable g1) W1) as (ND & _ & Hin). rewrite E in ND, Hin.
  assert (Hup : forall j, unprocessed g1 j = true -> unprocessed g j = true). { intros j Hj. unfold unprocessed in *. destruct (get_node g1 j) as [n|] eqn:En; [|discriminate Hj]. apply K in En. now rewrite En. }
  assert (HF1 : Free g1) by (intros j n Hn Hd; apply (HF j n); [now apply K|exact Hd]). assert (HFN := free_nodes nodes _ _ _ W1 HF1 ND (fun j Hj => proj2 (proj1 (Hin j) Hj)) F). destruct (nodes_step _ _ _ _ W1 ND F) as (W2 & _).
  apply Hup. apply in_app_iff in Hi as [Hi|Hi]; [now apply Hin|]. assert (Hu := IH W2 (fun j n Hn Hd => HF1 j n (HFN j n Hn Hd) Hd) i Hi). unfold unprocessed in *.
  destruct (get_node g2 i) as [n|] eqn:En; [|discriminate Hu]. destruct (n_done n) eqn:Ed; [discriminate Hu|]. rewrite (HFN i n En Ed), Ed. reflexivity.
Qed.

(** ** The file is never written while the resolver runs: the loop check never finds the same elements twice *)
Lemma list_nat_eqb_eq a : forall b, list_nat_eqb a b = true -> a = b.
Proof. intros b. unfold list_nat_eqb. destruct (list_eq_dec Nat.eq_dec a b); [auto|discriminate]. Qed.
Section File.
  Context (draw : graph -> string + exn) (modify : string -> nat -> string + exn) (pack : string -> string) (ct pt : string).
  Lemma rounds_file fuel : forall g prev s s' r, WF g -> (forall i, In i prev -> unprocessed g i = false) -> lg_active s = true -> lg_resolved s = [] ->
    rounds_l draw modify pack ct pt fuel g prev s = (s', r) -> lg_files s' = lg_files s.
  Proof.
    induction fuel as [|f IH]; intros g prev s s' [ws r] W HP Ha Hr H; cbn [rounds_l] in H; [injection H as <- _ _; reflexivity|].
    apply lbind_inv in H as [(e & -> & H)|(s1 & w1 & u & w2 & K1 & H & _)]; [unfold log_round_start, when_active in H; rewrite Ha in H; discriminate H|].
    destruct (w_round draw modify pack ct _ _ _ _ Ha K1) as (F1 & R1 & _ & _ & L1). rewrite Hr in R1. assert (Ha1 := logs_act _ _ _ _ _ _ L1). rewrite <- F1. clear K1 F1 L1 Ha Hr s.
    apply lbind_inv in H as [(e & -> & H)|(s2 & w3 & g1 & w4 & K2 & H & _)]; [apply (phs_l draw modify pack ct pt _ _ _ _ _ Ha1 R1) in H; apply H|].
    destruct (phs_l draw modify pack ct pt _ _ _ _ _ Ha1 R1 K2) as (F2 & Ha2 & paths & HR & R2 & _). rewrite <- F2. destruct (refs_step _ _ _ _ W HR) as [W1 KR]. clear K2 F2 Ha1 R1 s1. cbn zeta in H.
    destruct (topological_sorted_spec g1 (find_processable g1) W1) as (ND & _ & Hin). set (nodes := topological_sorted g1 (find_processable g1)) in *. clearbody nodes.
    apply lbind_inv in H as [(e & -> & H)|(s3 & w5 & v & w6 & K3 & H & _)]; [apply (w_elements draw modify pack ct g1 nodes _ _ _ _ Ha2) in H; apply H|].
    destruct (w_elements draw modify pack ct g1 nodes _ _ _ _ Ha2 K3) as (F3 & R3 & L3). rewrite <- F3. assert (Ha3 := logs_act _ _ _ _ _ _ L3). rewrite R2 in R3. clear K3 F3 L3 Ha2 R2 s2.
    destruct nodes as [|x l]; [injection H as <- _ _; reflexivity|]. destruct (list_nat_eqb (x :: l) prev) eqn:El.
    { exfalso. apply list_nat_eqb_eq in El. subst prev. assert (Hx := HP x (or_introl eq_refl)). assert (Hx' := proj2 (proj1 (Hin x) (or_introl eq_refl))). unfold unprocessed in *.
      destruct (get_node g1 x) as [n|] eqn:En; [|discriminate Hx']. apply KR in En. rewrite En in Hx. congruence. }
    apply lbind_inv in H as [(e & -> & H)|(s4 & w7 & g2 & w8 & K4 & H & _)]; [injection H as <- _; reflexivity|]. injection K4 as <- Hf.
    apply lbind_inv in H as [(e & -> & H)|(s5 & w9 & y & w10 & K5 & H & _)]; [apply (w_end draw modify pack ct g2 _ _ _ _ Ha3) in H; apply H|].
    destruct (w_end draw modify pack ct g2 _ _ _ _ Ha3 K5) as (F5 & R5 & L5). rewrite <- F5. destruct (nodes_step _ _ _ _ W1 ND Hf) as (W2 & _ & D2). apply (IH _ _ _ _ _ W2) in H; [exact H| |exact (logs_act _ _ _ _ _ _ L5)|congruence].
    intros i Hi. destruct (D2 i Hi) as (n & Hn & Hd). unfold unprocessed. now rewrite Hn, Hd.
  Qed.
  Lemma resolve_file fuel ps path : lg_files (fst (resolve_peripherals_l draw modify pack ct pt fuel ps (new_log (Some path)))) = [].
  Proof.
    destruct (resolve_peripherals_l draw modify pack ct pt fuel ps (new_log (Some path))) as [s' [ws r]] eqn:H. cbn [fst].
    set (s := new_log (Some path)) in *. assert (Ha : lg_active s = true) by reflexivity. assert (Hr : lg_resolved s = []) by reflexivity. change (@nil string) with (lg_files s). clearbody s. unfold resolve_peripherals_l in H.
    apply lbind_inv in H as [(e & -> & H)|(s1 & w1 & g & w2 & K & H & _)]; [injection H as <- _; reflexivity|]. injection K as <- Hg.
    apply lbind_inv in H as [(e & -> & H)|(s1 & w3 & u & w4 & K & H & _)]; [apply (w_init draw modify pack ct g _ _ _ _ Ha H)|].
    destruct (w_init draw modify pack ct g _ _ _ _ Ha K) as (F1 & R1 & L1). rewrite <- F1. assert (Ha1 := logs_act _ _ _ _ _ _ L1). rewrite Hr in R1. clear K F1 L1 Ha Hr s.
    apply lbind_inv in H as [(e & -> & H)|(s2 & w5 & g0 & w6 & K & H & _)]; [injection H as <- _; reflexivity|]. injection K as <- Hg0.
    apply lbind_inv in H as [(e & -> & H)|(s2 & w7 & u2 & w8 & K & H & _)]; [apply (w_pc draw modify pack ct g0 _ _ _ _ Ha1 H)|].
    destruct (w_pc draw modify pack ct g0 _ _ _ _ Ha1 K) as (F2 & R2 & L2). rewrite <- F2. assert (Ha2 := logs_act _ _ _ _ _ _ L2). rewrite R1 in R2. clear K F2 L2 Ha1 R1 s1.
    apply lbind_inv in H as [(e & -> & H)|(s3 & w9 & u3 & w10 & K & H & _)]; [apply (w_start draw modify pack ct _ _ _ _ Ha2 H)|].
    destruct (w_start draw modify pack ct _ _ _ _ Ha2 K) as (F3 & R3 & L3). rewrite <- F3. assert (Ha3 := logs_act _ _ _ _ _ _ L3). rewrite R2 in R3. clear K F3 L3 Ha2 R2 s2.
    destruct (link_todo _ _ _ _ _ Hg Hg0) as [W _]. assert (KR : forall s'' r', rounds_l draw modify pack ct pt fuel g0 [] s3 = (s'', r') -> lg_files s'' = lg_files s3).
    { intros s'' r' K. apply (rounds_file fuel g0 [] s3 s'' r' W); auto. intros i []. }
    apply lbind_inv in H as [(e & -> & H)|(s4 & w11 & g' & w12 & K & H & _)]; [exact (KR _ _ H)|]. rewrite <- (KR _ _ K). assert (Ha4 : lg_active s4 = true).
    { destruct (rounds_logs draw modify pack ct pt _ _ _ _ _ _ _ Ha3 R3 K) as (_ & rs & _ & L). exact (logs_act _ _ _ _ _ _ L). }
    apply lbind_inv in H as [(e & -> & H)|(s5 & w13 & u5 & w14 & K5 & H & _)]; [apply (w_finished draw modify pack ct _ _ _ _ Ha4 H)|]. injection H as <- _. apply (w_finished draw modify pack ct _ _ _ _ Ha4 K5).
  Qed.
End File.
