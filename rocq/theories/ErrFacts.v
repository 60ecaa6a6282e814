(** * ErrFacts: where the exceptions of the resolver come from. *)
From Verif Require Import Base PyStr PyInt Types DimModel EnumModel ElemModel FinalModel ResolveModel GraphFacts ResolveWF TopoFacts ReplicateFacts SpecSearch SearchFacts ResolveInv SpecDim SpecExpand DimFacts SpecElem ElemFacts DescribeFacts ExpandInv ExpandStep ExpandBuild BuildOk AcceptFacts LogModel SpecLog LogFacts LogListed DrawFacts EdgeFacts DepFacts.
Local Open Scope string_scope.

(** the statements that raise an exception other than ProcessException and the four classes Process converts (process.py:97-106) *)
Definition raw_sources : list (exn_class * list string) := [
  (ValueError, ["int(dim_index)"; "unpack dim_index.split"]);
  (TypeError, ["ord()"; "range(float)"]);
  (AttributeError, ["lsb"; "enumerated_values"]);
  (ResolveException, ["Processed attribute of node is None"; "Multiple base nodes found for derive path"; "Base node not found"; "Base element not found";
     "max_size can't be -1"; "Unknown node type"; "Peripherals not resolved"])].
Definition Raw (e : exn) : Prop := exists l, In (ex_class e, l) raw_sources /\ In (ex_site e) l.
(** what the resolver raises *)
Definition Known (e : exn) : Prop :=
  match ex_class e with
  | ProcessException | EnumeratedValueContainerException | UnprocessedNodesException => True
  | CycleException => ex_site e = "Inheritance cycle detected"
  | LoopException => False
  | OutOfFuel => True
  | _ => Raw e
  end.
Definition Raises {A} (m : M A) : Prop := match snd m with Ok _ => True | Err e => Known e end.
Lemma ra_ret {A} (a : A) : Raises (ret a). Proof. exact I. Qed.
Lemma ra_raise {A} c s : Known (E c s) -> Raises (@raise A c s). Proof. intros H. exact H. Qed.
Lemma ra_warn w : Raises (warn w). Proof. exact I. Qed.
Lemma ra_warn_if b w : Raises (warn_if b w). Proof. destruct b; exact I. Qed.
Lemma ra_raise_if b c s : Known (E c s) -> Raises (raise_if b c s). Proof. intros H. destruct b; [exact H|exact I]. Qed.
Lemma ra_bind {A B} (m : M A) (f : A -> M B) : Raises m -> (forall a, Raises (f a)) -> Raises (bind m f).
Proof. intros H Hf. destruct m as [ws [a|e]]; cbn in *; [|exact H]. specialize (Hf a). unfold Raises in *. destruct (f a) as [w2 r]. exact Hf. Qed.
Lemma ra_mapM {A B} (f : A -> M B) l : (forall x, Raises (f x)) -> Raises (mapM f l).
Proof. intros H. induction l as [|x l IH]; cbn; [exact I|]. apply ra_bind; [apply H|]. intros. apply ra_bind; [exact IH|]. intros. exact I. Qed.
Lemma ra_foldM {A B} (f : B -> A -> M B) l : (forall b x, In x l -> Raises (f b x)) -> forall b, Raises (foldM f b l).
Proof. induction l as [|x l IH]; intros H b; cbn; [exact I|]. apply ra_bind; [apply H; now left|]. intros. apply IH. intros. apply H. now right. Qed.

Ltac src := match goal with |- Known (E ?c ?s) => first [exact I | reflexivity | (unfold Known; cbn [ex_class]; eexists; split; [cbn; repeat (first [left; reflexivity | right])|cbn; repeat (first [left; reflexivity | right])])] end.
Ltac ra := repeat
  match goal with
  | |- Known _ => solve [src]
  | H : ?g |- ?g => exact H
  | |- Raises (ret _) => apply ra_ret
  | |- Raises (raise _ _) => apply ra_raise
  | |- Raises (raise_if _ _ _) => apply ra_raise_if
  | |- Raises (warn _) => apply ra_warn
  | |- Raises (warn_if _ _) => apply ra_warn_if
  | |- Raises (bind _ _) => apply ra_bind; [|intros ?]
  | |- Raises (mapM _ _) => apply ra_mapM; intros ?
  | |- Raises (foldM (build_rc _) _ _) => fail 1
  | |- Raises (foldM _ _ _) => apply ra_foldM; intros ? ? _
  | |- Raises (match ?x with _ => _ end) => destruct x
  | |- Raises (let _ := _ in _) => cbn zeta
  | |- Raises ((fun _ => _) _) => cbn beta
  end.

Lemma ra_int2 s : Raises (int2_or_pe s). Proof. unfold int2_or_pe. ra. Qed.
Lemma ra_wild s : Raises (process_binary_value_with_wildcard s).
Proof. unfold process_binary_value_with_wildcard. ra; apply ra_int2. Qed.
Lemma ra_convert s : Raises (convert_enumerated_value s).
Proof. unfold convert_enumerated_value. ra. apply ra_wild. Qed.
Lemma ra_resolve_wildcard p : Raises (resolve_wildcard p).
Proof. unfold resolve_wildcard. ra; apply ra_convert. Qed.
Lemma ra_valid st v : Raises (is_value_valid st v).
Proof. unfold is_value_valid. ra. Qed.
Lemma ra_validate l : forall st, Raises (validate_all st l).
Proof. induction l as [|v l IH]; intros st; cbn [validate_all]; ra. - apply ra_valid. - apply IH. Qed.
Lemma ra_evs l : forall st, Raises (process_evs_loop st l).
Proof. induction l as [|v l IH]; intros st; cbn [process_evs_loop]; ra. - apply ra_resolve_wildcard. - apply ra_validate. - apply IH. Qed.
Lemma ra_evc p lsb msb : Raises (create_evc p lsb msb).
Proof. unfold create_evc, process_enumerated_values, extend_with_default. ra. apply ra_evs. Qed.

Lemma ra_dim_index d i : Raises (process_dim_index d i).
Proof. unfold process_dim_index. ra. Qed.
Lemma ra_dimension n d dim idx k : Raises (extract_dimension n d dim idx k).
Proof. unfold extract_dimension, process_dim, process_dim_array, process_dim_list. ra; apply ra_dim_index. Qed.
Lemma ra_node_dimension p b : Raises (node_dimension p b).
Proof. unfold node_dimension. ra; apply ra_dimension. Qed.
Lemma ra_msb_lsb f b : Raises (process_field_msb_lsb f b).
Proof.
  unfold process_field_msb_lsb. cbn zeta. apply ra_bind; [|intros s3; ra]. destruct (sf_bit_range f) as [br|]; [|ra]. destruct (re_bit_range br) as [[a b']|] eqn:E; [|ra].
  apply re_bit_range_sound in E as (Ha & Hb & _). rewrite !py_int_dec by assumption. ra.
Qed.
Lemma ra_field i n f b : Raises (process_field i n f b).
Proof. unfold process_field. ra. apply ra_msb_lsb. Qed.
Lemma ra_create index name display p base : p <> PaDev -> ~ is_evc p -> Raises (create_element index name display p base).
Proof. intros H1 H2. unfold create_element. destruct p as [|p|[r|c l]|f|e]; try (ra; apply ra_field); [congruence|destruct H2; exact I]. Qed.
Lemma ra_creates names : forall index displays p base, p <> PaDev -> ~ is_evc p -> Raises (create_elements index names displays p base).
Proof. induction names as [|n l IH]; intros; cbn [create_elements]; ra. - now apply ra_create. - now apply IH. Qed.

(** ** what is known of every element of the graph *)
Definition kind_match (v : processed) (p : parsed) : Prop :=
  match v, p with PrPer _, PaPer _ | PrRc (IReg _), PaRc (SReg _) | PrRc (IClu _ _), PaRc (SClu _ _) | PrFld _, PaFld _ => True | _, _ => False end.
(** its level is that of its description; the device is processed from the start; a value is of the kind of the description, and there is one exactly when the element is processed *)
Record PK (n : node) : Prop := {
  pk_level : n_level n = level_of (n_parsed n);
  pk_dev : n_parsed n = PaDev -> n_done n = true;
  pk_val : forall v, n_processed n = Some v -> n_done n = true /\ kind_match v (n_parsed n);
  pk_done : n_done n = true -> n_processed n = None -> n_parsed n = PaDev \/ is_evc (n_parsed n) }.
Lemma create_kind index name display p b ws v : create_element index name display p b = (ws, Ok v) -> kind_match v p.
Proof.
  unfold create_element. destruct p as [|p|[r|c l]|f|e]; intros H; try discriminate; try (apply ret_ok in H as [<- _]; exact I).
  apply bind_ok in H as (w1 & a & w2 & _ & H & _). apply ret_ok in H as [<- _]. exact I.
Qed.
Lemma creates_kind names : forall index displays p b ws vs, create_elements index names displays p b = (ws, Ok vs) -> length vs = length names /\ forall v, In v vs -> kind_match v p.
Proof.
  induction names as [|n l IH]; intros index displays p b ws vs H; cbn [create_elements] in H.
  - apply ret_ok in H as [<- _]. split; [reflexivity|intros v []].
  - apply bind_ok in H as (w1 & v & w2 & H1 & H & _). apply bind_ok in H as (w3 & vs' & w4 & H2 & H & _). apply ret_ok in H as [<- _]. destruct (IH _ _ _ _ _ _ H2) as [E K].
    split; [cbn; congruence|]. intros x [<-|Hx]; [exact (create_kind _ _ _ _ _ _ _ H1)|auto].
Qed.
Lemma kind_named name v p : kind_match v p -> kind_match (with_name name v) p.
Proof. destruct v as [?|[?|? ?]|?], p as [|?|[?|? ?]|?|?]; cbn; auto. Qed.
Lemma kind_undim v p : kind_match v p -> kind_match (without_dim v) p.
Proof. destruct v as [?|[?|? ?]|?], p as [|?|[?|? ?]|?|?]; cbn; auto. Qed.
Lemma pk_redone n v t : PK n -> n_processed n = None -> kind_match v (n_parsed n) -> PK (redone n v t).
Proof. intros [L D V N] H K. split; cbn; auto; [|discriminate]. intros u E. injection E as <-. auto. Qed.
Lemma pk_refined n v v' : PK n -> n_processed n = Some v -> (forall p, kind_match v p -> kind_match v' p) -> PK (refined n v').
Proof. intros [L D V N] H K. destruct (V _ H) as [Hd Hk]. split; cbn; auto; [|discriminate]. intros u E. injection E as <-. auto. Qed.
Lemma PK_closed : Closed (fun _ => True) PK.
Proof.
  split; auto.
  - split; cbn; auto; discriminate.
  - intros. split; cbn; auto; discriminate.
  - intros. split; cbn; auto; discriminate.
  - intros. split; cbn; auto; discriminate.
  - intros. split; cbn; auto; discriminate.
  - intros. split; cbn; auto; discriminate.
  - intros n bv w names displays w' v vs H H0 _ _ _ Hc. apply pk_redone; auto. apply creates_kind in Hc as [_ K]. apply K. now left.
  - intros n bv w names displays w' v vs H H0 _ _ _ Hc. apply pk_redone; auto. apply creates_kind in Hc as [_ K]. apply kind_named, K. now left.
  - intros n bv w names displays w' vs v H H0 _ _ _ Hc Hv. apply creates_kind in Hc as [_ K]. specialize (K _ Hv). destruct H as [L D V N]. split; cbn; auto; [|discriminate]. intros u E. injection E as <-. split; [reflexivity|now apply kind_undim].
  - intros n e [L D V N] He _. split; cbn; auto.
    + intros v E. destruct (V _ E) as [_ K]. auto.
    + intros _ _. right. rewrite He. exact I.
  - intros n nb e e' [L D V N] [Lb Db Vb Nb] He Heb _ HL. assert (H0 : n_processed n = None). { destruct (n_processed n) as [v|] eqn:Ev; [|reflexivity]. destruct (V _ eq_refl) as [_ K]. rewrite He in K. destruct v as [?|[?|? ?]|?]; destruct K. }
    split; split; cbn; rewrite ?H0, ?Heb; try discriminate; try (rewrite L, He; reflexivity); intros; right; exact I.
  - intros n f cs H _ _ Hv _ _. apply (pk_refined _ _ _ H Hv). intros p. destruct p as [|?|[?|? ?]|?|?]; auto.
  - intros n r fs H _ _ Hv _ _. apply (pk_refined _ _ _ H Hv). intros p. destruct p as [|?|[?|? ?]|?|?]; auto.
  - intros n c l s xs H _ _ Hv _ _. apply (pk_refined _ _ _ H Hv). intros p. destruct p as [|?|[?|? ?]|?|?]; auto.
  - intros n p s xs H _ _ Hv _ _ _. apply (pk_refined _ _ _ H Hv). intros q. destruct q as [|?|[?|? ?]|?|?]; auto.
Qed.
Notation NK := (NI PK).

Lemma bind_raises {A B} (m : M A) (f : A -> M B) : Raises m -> (forall ws a, m = (ws, Ok a) -> Raises (f a)) -> Raises (bind m f).
Proof. intros H Hf. destruct m as [ws [a|e]]; cbn in *; [|exact H]. specialize (Hf ws a eq_refl). unfold Raises in *. destruct (f a) as [w2 r]. exact Hf. Qed.

Lemma ra_ok {A} (m : M A) : ok m -> Raises m.
Proof. intros (ws & a & ->). exact I. Qed.
Lemma ra_search_loop g sub part final excl lv : (forall i, Raises (sub i)) -> forall nodes acc, Raises (search_loop g sub part final excl lv nodes acc).
Proof. intros Hs. induction nodes as [|i l IH]; intros acc; cbn [search_loop]; ra; try apply IH. apply Hs. Qed.
Lemma ra_search g parts : forall excl lv nodes, Raises (search_nodes g parts excl lv nodes).
Proof. induction parts as [|a l IH]; intros; cbn [search_nodes]; ra. apply ra_search_loop. intros i. apply IH. Qed.
Lemma ra_path g i lv p : Raises (path_resolving g i lv p).
Proof. unfold path_resolving. ra; apply ra_search. Qed.
Lemma ph_child_elem g ph ws c : get_placeholder_child g ph = (ws, Ok c) -> is_elem g c = true.
Proof.
  unfold get_placeholder_child. intros H. destruct (map _ _) as [|x [|y l]] eqn:E; try discriminate. apply ret_ok in H as [-> _].
  assert (K : In c (map e_dst (filter (fun e => is_elem g (e_dst e) && etype_eqb (e_typ e) PLACEHOLDER) (out_edges g ph)))) by (rewrite E; now left).
  apply in_map_iff in K as (e & <- & K). apply filter_In in K as [_ K]. now apply andb_prop in K.
Qed.
Lemma ra_resolve_ph g ph path : CE g -> PU g -> get_slot g ph = Some (NPh path) -> Raises (resolve_placeholder g ph).
Proof.
  intros C P Hp. assert (Q : is_ph g ph) by (exists path; exact Hp). unfold resolve_placeholder. apply ra_bind; [apply ra_ok; now apply parent_ok|]. intros parent. destruct (negb _); [ra|]. apply bind_raises; [apply ra_ok; now apply child_okay|].
  intros ws c Hc. apply ph_child_elem in Hc. apply is_elem_node in Hc as (n & Hn). rewrite Hp, Hn. ra. apply ra_path.
Qed.
Lemma ra_phs l : forall g, WF g -> CE g -> PU g -> NoDup l -> (forall h, In h l -> exists path, get_slot g h = Some (NPh path)) -> Raises (foldM resolve_placeholder g l).
Proof.
  induction l as [|h l IH]; intros g W C P ND Hl; cbn [foldM]; [ra|]. inversion ND as [|? ? Hh ND']. subst. destruct (Hl h (or_introl eq_refl)) as (path & Hp). apply bind_raises; [exact (ra_resolve_ph _ _ _ C P Hp)|].
  intros ws g1 H. destruct (resolve_ph_spec _ _ _ _ W H) as (W1 & _). apply IH; [exact W1|exact (ce_resolve _ _ _ _ C H)|exact (pu_resolve _ _ _ _ C P H)|exact ND'|]. intros h' Hh'. destruct (Hl h' (or_intror Hh')) as (q & Hq). exists q.
  apply resolve_ph_inv in H as [->|(parent & pn & child & n & path' & b & _ & _ & _ & _ & Hp' & _ & _ & _ & ->)]; [exact Hq|].
  change (get_slot (remove_placeholder g h) h' = Some (NPh q)). rewrite (remove_ph_slot _ _ _ Hp'). destruct (Nat.eqb_spec h h') as [->|_]; [contradiction|exact Hq].
Qed.
Lemma phi_phs l : forall g ws g', PhI g -> foldM resolve_placeholder g l = (ws, Ok g') -> PhI g'.
Proof.
  induction l as [|h l IH]; intros g ws g' P H; cbn [foldM] in H; [apply ret_ok in H as [<- _]; exact P|]. apply bind_ok in H as (w1 & g1 & w2 & H1 & H2 & _). exact (IH _ _ _ (phi_resolve _ _ _ _ P H1) H2).
Qed.
(** copying descendants closes no cycle *)
Lemma ra_replicate g b i s t : WF g -> get_slot g t <> None -> Raises (replicate_descendants (remove_edge g b i) s t).
Proof. intros W H. apply ra_ok, replicate_ok; [now apply WF_remove_edge|exact H]. Qed.
Lemma ra_update g i b v t n : WF g -> get_node g i = Some n -> n_processed n = None -> Raises (update_node g i b v t).
Proof.
  intros W Hn Hv. unfold update_node. apply bind_raises; [destruct b as [b|]; [apply ra_replicate; [exact W|apply get_node_slot in Hn; congruence]|ra]|]. intros ws g1 H1.
  assert (HP : Prepared g i b g1).
  { destruct b as [b|]; cbn; [|apply ret_ok in H1 as [<- _]; reflexivity]. eapply replicate_spec; [| |exact H1].
    - now apply WF_remove_edge.
    - apply get_node_slot in Hn. change (get_slot g i <> None). congruence. }
  destruct (prepared_keeps _ _ _ _ W HP) as [W1 K1]. assert (Hn1 := ReplicateFacts.keeps_node _ _ _ _ K1 Hn). rewrite Hn1, Hv. cbn [is_some]. unfold raise_if at 1. rewrite bind_ret_l. ra.
Qed.
Lemma ra_update_dim g i b vs tv n : WF g -> get_node g i = Some n -> n_processed n = None -> Raises (update_dim_node g i b vs tv).
Proof.
  intros W Hn Hv. unfold update_dim_node. apply bind_raises; [exact (ra_update _ _ _ _ _ _ W Hn Hv)|]. intros ws g1 H1.
  destruct (update_node_spec _ _ _ _ _ _ _ _ W Hn H1) as (g0 & _ & _ & _ & Hs1 & _). assert (Hn1 := Hs1 i). rewrite Nat.eqb_refl in Hn1. apply get_node_slot in Hn1. rewrite Hn1.
  assert (W1 : WF g1) by (destruct (update_node_spec _ _ _ _ _ _ _ _ W Hn H1) as (? & _ & _ & W' & _); exact W'). set (n' := mk_node _ _ _ _ _ _) in *.
  assert (Hpar : forall p, In p (get_element_parents g1 i) -> get_slot g1 p <> None) by (intros p Hin; apply element_parents_In in Hin as (t & K & _); apply (wf_edge _ W1 _ _ _ K)).
  apply ra_ok, ok_bind; [apply (instances_ok n' (get_element_parents g1 i) vs (g1, [])); [exact W1|exact Hpar]|]. intros w r Er.
  destruct (add_instances n' (get_element_parents g1 i) vs g1 [] w r W1 Hpar Er) as (xs & Wr & Kr & _ & Ej & Hxs & Hnd & Hsl & _ & Ee). rewrite Ej. cbn [app].
  apply all_edges_ok; auto.
  - intros K. apply in_map_iff in K as (x & Ex & Hx). destruct (Hsl x Hx) as [K _]. rewrite Ex in K. apply get_node_slot in Hn1. congruence.
  - assert (Hnew : forall x, In x xs -> In (i_par x) (get_element_parents g1 i)).
    { intros x Hx. assert (K : In (i_par x, i_val x) (list_prod (get_element_parents g1 i) vs)) by (rewrite <- Hxs; apply (in_map (fun x => (i_par x, i_val x))); exact Hx). apply in_prod_iff in K as [K _]. exact K. }
    assert (Hst : forall q j, In j (map i_idx xs) -> Step (fst r) q j -> In q (get_element_parents g1 i)).
    { intros q j Hj (t & K). rewrite Ee in K. apply in_app_iff in K as [K|K].
      - apply in_rev, in_map_iff in K as (x & Ex & Hx). injection Ex as <- _ _. now apply Hnew.
      - exfalso. apply in_map_iff in Hj as (x & <- & Hx). destruct (Hsl x Hx) as [Hnone _]. destruct (wf_edge _ W1 _ _ _ K). contradiction. }
    assert (Hup : forall q, In q (get_element_parents g1 i) -> Step (fst r) q i). { intros q K. apply element_parents_In in K as (t & K & _). exists t. rewrite Ee. apply in_app_iff. now right. }
    intros j Hj. split; [|split].
    + apply in_map_iff in Hj as (x & <- & Hx). destruct (Hsl x Hx) as [_ K]. congruence.
    + intros q K. apply Hup. now apply (Hst q j).
    + intros K. apply element_childrens_In in K as (t & K & _). assert (K' := Hst i j Hj (ex_intro _ t K)). apply Hup in K'. apply (wf_acyclic _ Wr i i K'). apply Relation_Operators.rt_refl.
Qed.
(** an element with dim has at least one instance *)
Lemma zrange_ne a b : (a < b)%Z -> zrange a b <> [].
Proof. intros H E. assert (L := f_equal (@length Z) E). unfold zrange in L. rewrite map_length, seq_length in L. cbn in L. lia. Qed.
Lemma dimension_ne n disp dim idx k ws r : extract_dimension n disp dim idx k = (ws, Ok r) -> snd (fst r) <> [].
Proof.
  unfold extract_dimension. intros H. apply bind_ok in H as (? & ? & ? & _ & H & _). apply bind_ok in H as (? & dim' & ? & _ & H & _). apply bind_ok in H as (? & ? & ? & _ & H & _).
  apply bind_ok in H as (? & [names displays] & ? & H1 & H & _). apply ret_ok in H as [<- _]. cbn [fst snd]. unfold process_dim in H1. destruct dim' as [d|]; [|apply ret_ok in H1 as [E _]; injection E as <- _; discriminate].
  apply bind_ok in H1 as (? & ? & ? & Hd & H1 & _). unfold raise_if in Hd. destruct (d <? 1)%Z eqn:Ed; [discriminate|]. apply Z.ltb_ge in Ed.
  assert (HA : forall w, process_dim_array n disp d = (w, Ok (names, displays)) -> names <> []).
  { intros w HA. unfold process_dim_array in HA. apply bind_ok in HA as (? & ? & ? & _ & HA & _). apply ret_ok in HA as [E _]. injection E as <- _. intros E. apply map_eq_nil, map_eq_nil in E. revert E. apply zrange_ne. lia. }
  assert (HL : forall w, process_dim_list n disp d idx = (w, Ok (names, displays)) -> names <> []).
  { intros w HL. unfold process_dim_list in HL. apply bind_ok in HL as (? & ? & ? & _ & HL & _). apply bind_ok in HL as (? & ix & ? & Hix & HL & _). apply ret_ok in HL as [E _]. injection E as <- _. intros E. apply map_eq_nil in E. subst ix.
    unfold process_dim_index in Hix. apply bind_ok in Hix as (? & ? & ? & _ & Hix & _). apply bind_ok in Hix as (? & l & ? & _ & Hix & _). apply bind_ok in Hix as (? & ? & ? & Hl & Hix & _). apply ret_ok in Hix as [-> _].
    unfold raise_if in Hl. destruct (negb _) eqn:En in Hl; [discriminate|]. apply negb_false_iff, Z.eqb_eq in En. cbn in En. lia. }
  destruct (contains "[%s]" n); [destruct k; try discriminate; exact (HA _ H1)|]. destruct (contains "%s" n); [|discriminate]. destruct k; try discriminate; exact (HL _ H1).
Qed.
Lemma ra_process_dimable g i p base bv n : WF g -> get_node g i = Some n -> n_processed n = None -> p <> PaDev -> ~ is_evc p -> Raises (process_dimable g i p base bv).
Proof.
  intros W Hn Hv Hp He. unfold process_dimable. apply bind_raises; [apply ra_node_dimension|]. intros w1 [[is_dim names] displays] H1. assert (Hne : names <> []) by exact (dimension_ne _ _ _ _ _ _ _ H1).
  apply bind_raises; [now apply ra_creates|]. intros w2 vs H2. apply creates_kind in H2 as [Hl _]. destruct vs as [|v vs]; [destruct names; [congruence|discriminate Hl]|].
  destruct is_dim; [exact (ra_update_dim _ _ _ _ _ _ W Hn Hv)|exact (ra_update _ _ _ _ _ _ W Hn Hv)].
Qed.
Lemma ra_process_evc g i base n nb : WF g -> get_node g i = Some n -> (forall b, base = Some b -> get_node g b = Some nb /\ is_evc (n_parsed nb)) -> Raises (process_evc_node g i base).
Proof.
  intros W Hn Hb. unfold process_evc_node. apply bind_raises.
  - destruct base as [b|]; [|ra]. destruct (Hb b eq_refl) as [Hnb He]. rewrite Hnb, Hn. destruct (n_parsed nb); try destruct He. apply ra_replicate; [eapply WF_set_node; eauto|]. rewrite (set_node_slot _ _ _ _ Hn), Nat.eqb_refl. discriminate.
  - intros ws g1 H1. assert (K : exists n1, get_node g1 i = Some n1).
    { destruct base as [b|]; [|apply ret_ok in H1 as [<- _]; eauto]. destruct (Hb b eq_refl) as [Hnb He]. rewrite Hnb, Hn in H1. destruct (n_parsed nb) as [| | | |e] eqn:Ep; try destruct He.
      set (n1 := mk_node _ _ _ _ _ _) in H1. assert (W0 : WF (set_node g i n1)) by (eapply WF_set_node; eauto).
      assert (Hn1 : get_node (set_node g i n1) i = Some n1) by (rewrite (set_node_node _ _ _ _ _ Hn), Nat.eqb_refl; reflexivity).
      apply replicate_spec in H1; [|now apply WF_remove_edge|apply get_node_slot in Hn1; change (get_slot (set_node g i n1) i <> None); congruence]. destruct H1 as [m Hm]. exists n1. exact (ReplicateFacts.keeps_node _ _ _ _ (rp_keeps _ _ _ _ _ Hm) Hn1). }
    destruct K as [n1 ->]. ra.
Qed.
Lemma base_node g i b : WF g -> get_base_element_node g i = Some b -> In (b, i, DERIVE) (g_edges g).
Proof.
  intros W H. unfold get_base_element_node in H. destruct (find _ _) as [e|] eqn:E; [|discriminate]. injection H as <-. apply find_some in E as [Hin Ht]. unfold in_edges in Hin. apply filter_In in Hin as [Hin Hd]. apply Nat.eqb_eq in Hd.
  destruct e as [[a c] t]. cbn in *. subst c. destruct t; try discriminate. exact Hin.
Qed.
(** an edge from a base to a derived element joins elements of the same level *)
Definition DI (g : graph) : Prop := forall a b, In (a, b, DERIVE) (g_edges g) -> exists na nb, get_node g a = Some na /\ get_node g b = Some nb /\ n_level na = n_level nb.
Definition lkeeps (g g' : graph) : Prop := forall i n, get_node g i = Some n -> exists n', get_node g' i = Some n' /\ n_level n' = n_level n.
Lemma di_keeps g g' : DI g -> lkeeps g g' -> (forall a b, In (a, b, DERIVE) (g_edges g') -> In (a, b, DERIVE) (g_edges g)) -> DI g'.
Proof. intros D K E a b H. destruct (D a b (E a b H)) as (na & nb & Ha & Hb & Hl). destruct (K _ _ Ha) as (na' & Ha' & La). destruct (K _ _ Hb) as (nb' & Hb' & Lb). exists na', nb'. split; [exact Ha'|]. split; [exact Hb'|congruence]. Qed.
Lemma di_replicated g b i g1 m : DI g -> Replicated g b i g1 m -> DI g1.
Proof.
  intros D R x y H. assert (K : forall j n, get_node g j = Some n -> get_node g1 j = Some n) by (intros j n; apply ReplicateFacts.keeps_node, (rp_keeps _ _ _ _ _ R)).
  assert (F : forall j c n, In (j, c) m -> get_node g j = Some n -> get_node g1 c = Some n) by (intros j c n Hm Hn; destruct (rp_fresh _ _ _ _ _ R j c Hm) as [_ E]; apply get_node_slot; rewrite E; now apply get_node_slot).
  destruct (rp_edges _ _ _ _ _ R) as (new & He & Hnew). rewrite He in H. apply in_app_iff in H as [H|H].
  - apply Hnew in H as [(j & c & Hj & Hc & H)|[(j & Hj & H & _)|(-> & c & t0 & H & Hc & Ht)]].
    + destruct (D _ _ H) as (na & nb & Ha & Hb & Hl). exists na, nb. eauto.
    + destruct (D _ _ H) as (na & nb & Ha & Hb & Hl). exists na, nb. eauto.
    + exfalso. unfold attach_type in Ht. destruct (is_elem g c); [|discriminate Ht]. destruct (match get_node g b with Some n => n_done n | None => false end); discriminate Ht.
  - destruct (D _ _ H) as (na & nb & Ha & Hb & Hl). exists na, nb. eauto.
Qed.
Lemma di_remove_edge g b i : DI g -> DI (remove_edge g b i).
Proof. intros D. apply (di_keeps g); [exact D|intros j n H; exists n; auto|]. intros a c H. exact (remove_In _ _ _ _ H). Qed.
Lemma di_prepared g i base g1 : DI g -> Prepared g i base g1 -> DI g1.
Proof. intros D H. destruct base as [b|]; cbn in H; [|now subst]. destruct H as (m & R). exact (di_replicated _ _ _ _ _ (di_remove_edge _ _ _ D) R). Qed.
Lemma lk_set g i n n' : get_node g i = Some n -> n_level n' = n_level n -> lkeeps g (set_node g i n').
Proof. intros Hn Hl j m Hj. rewrite (set_node_node _ _ _ _ _ Hn). destruct (Nat.eqb_spec i j) as [->|_]; [|eauto]. exists n'. split; [reflexivity|congruence]. Qed.
Lemma di_update g i base v t ws g' n : WF g -> DI g -> get_node g i = Some n -> update_node g i base v t = (ws, Ok g') -> DI g'.
Proof.
  intros W D Hn H. apply (update_node_spec _ _ _ _ _ _ _ n W Hn) in H as (g1 & HP & _ & W' & Hs & He & _). assert (D1 := di_prepared _ _ _ _ D HP). destruct (prepared_keeps _ _ _ _ W HP) as [W1 K1]. assert (Hn1 := ReplicateFacts.keeps_node _ _ _ _ K1 Hn).
  apply (di_keeps g1); [exact D1| |].
  - intros j m Hj. specialize (Hs j). destruct (Nat.eqb_spec i j) as [->|_].
    + apply get_node_slot in Hs. eexists. split; [exact Hs|]. cbn. congruence.
    + apply get_node_slot in Hj. rewrite Hj in Hs. exists m. split; [now apply get_node_slot|reflexivity].
  - intros a b H. rewrite He in H. apply resolved_In in H as [H|H]; [exact H|discriminate H].
Qed.
Lemma di_process g i ws g' : WF g -> DI g -> process_node g i = (ws, Ok g') -> DI g'.
Proof.
  intros W D H. apply process_node_inv in H as (n & base & bv & Hn & _ & HB & H). destruct H as [(e & He & w & H)|(_ & w & H)].
  - apply (process_evc_spec _ _ _ _ _ n W Hn) in H as [(_ & _ & ->)|(b & nb & e' & g1 & -> & Hb & Hp & (m & R) & W' & Hn1 & ->)].
    + apply (di_keeps g); [exact D| |auto]. eapply lk_set; [exact Hn|reflexivity].
    + apply (di_keeps g1); [|eapply lk_set; [exact Hn1|reflexivity]|auto]. eapply di_replicated; [|exact R]. apply di_remove_edge. apply (di_keeps g); [exact D|eapply lk_set; [exact Hn|reflexivity]|auto].
  - apply process_dimable_inv in H as (w1 & is_dim & names & displays & w' & v & vs & _ & _ & w'' & H). destruct is_dim.
    + apply (update_dim_node_spec _ _ _ _ _ _ _ n W Hn) in H as (g1 & xs & (w2 & H1) & W' & K & _ & _ & _ & Hx & Hj & He). assert (D1 := di_update _ _ _ _ _ _ _ _ W D Hn H1). apply (di_keeps g1); [exact D1| |].
      * intros j m Hm. exists m. split; [exact (ReplicateFacts.keeps_node _ _ _ _ K Hm)|reflexivity].
      * intros a b Ha. rewrite He in Ha. apply in_app_iff in Ha as [Ha|Ha]; [apply in_rev, in_map_iff in Ha as (? & E & _); discriminate E|]. apply in_app_iff in Ha as [Ha|Ha]; [apply in_rev, in_map_iff in Ha as (? & E & _); discriminate E|exact Ha].
    + exact (di_update _ _ _ _ _ _ _ _ W D Hn H).
Qed.
Lemma di_resolve g h ws g' : DI g -> resolve_placeholder g h = (ws, Ok g') -> DI g'.
Proof.
  intros D H. apply resolve_ph_inv in H as [->|(parent & pn & child & n & path & b & _ & _ & _ & _ & Hp & Hc & HP & _ & ->)]; [exact D|]. intros x y H.
  assert (K : forall j m, get_node g j = Some m -> get_node (mk_graph (g_slots (remove_placeholder g h)) (g_free (remove_placeholder g h)) ((b, child, DERIVE) :: g_edges (remove_placeholder g h)) (g_phs (remove_placeholder g h))) j = Some m).
  { intros j m Hm. apply get_node_slot. change (get_slot (remove_placeholder g h) j = Some (NElem m)). rewrite (remove_ph_slot _ _ _ Hp). apply get_node_slot in Hm. destruct (Nat.eqb_spec h j) as [->|_]; [congruence|exact Hm]. }
  destruct H as [E|H].
  - injection E as <- <-. destruct (path_resolving_node _ _ _ _ _ _ HP) as (_ & nb & Hb & Hl). exists nb, n. auto.
  - cbn [remove_placeholder g_edges] in H. apply filter_In in H as [H _]. destruct (D _ _ H) as (na & nb & Ha & Hb & Hl). exists na, nb. auto.
Qed.
Lemma di_phs l : forall g ws g', DI g -> foldM resolve_placeholder g l = (ws, Ok g') -> DI g'.
Proof.
  induction l as [|h l IH]; intros g ws g' D H; cbn [foldM] in H; [apply ret_ok in H as [<- _]; exact D|]. apply bind_ok in H as (w1 & g1 & w2 & H1 & H2 & _). exact (IH _ _ _ (di_resolve _ _ _ _ D H1) H2).
Qed.
Lemma di_start ps ws g : initialization ps = (ws, Ok g) -> DI g.
Proof. intros H. destruct (st_initialization (DescribeFacts.loose ps) ws g H) as (KS & (_ & _ & E & _) & _). intros a b Hab. destruct (w_der _ E _ _ Hab) as (na & nb & Ha & Hb & Hl & _). eauto. Qed.

Lemma ra_process_node g i : WF g -> NK g -> DI g -> unprocessed g i = true -> Raises (process_node g i).
Proof.
  intros W N D U. unfold unprocessed in U. destruct (get_node g i) as [n|] eqn:Hn; [|discriminate U]. apply negb_true_iff in U. assert (PN := N i n Hn).
  assert (Hv : n_processed n = None). { destruct (n_processed n) as [v|] eqn:Ev; [|reflexivity]. destruct (pk_val _ PN _ Ev) as [K _]. congruence. }
  assert (Hd : n_parsed n <> PaDev) by (intros E; rewrite (pk_dev _ PN E) in U; discriminate).
  unfold process_node. rewrite Hn. replace (match n_parsed n with PaDev => true | _ => false end) with false by (destruct (n_parsed n); congruence). unfold raise_if at 1. rewrite bind_ret_l.
  assert (HB : forall b, get_base_element_node g i = Some b -> exists nb, get_node g b = Some nb /\ n_level n = n_level nb).
  { intros b Eb. apply (base_node _ _ _ W) in Eb. destruct (D _ _ Eb) as (nb & n0 & Hb & H0 & Hl). replace n0 with n in * by congruence. eauto. }
  apply bind_raises.
  - destruct (derived_of (n_parsed n)); [|ra]. destruct (get_base_element_node g i) as [b|] eqn:Eb; [|ra]. destruct (HB b eq_refl) as (nb & -> & Hl). replace (level_eqb (n_level n) (n_level nb)) with true by (rewrite Hl; now destruct (n_level nb)).
    cbn [negb]. unfold raise_if at 1. rewrite bind_ret_l. ra.
  - intros ws base H1.
    assert (HE : is_evc (n_parsed n) -> Raises (process_evc_node g i (option_map fst base))).
    { intros Hev. assert (X : base = None \/ exists b nb, option_map fst base = Some b /\ get_node g b = Some nb /\ n_level n = n_level nb).
      { destruct (derived_of (n_parsed n)); [|apply ret_ok in H1 as [<- _]; now left]. destruct (get_base_element_node g i) as [b|] eqn:Eb; [|discriminate H1]. destruct (HB b eq_refl) as (nb & Enb & Hl). rewrite Enb in H1.
        apply bind_ok in H1 as (? & ? & ? & _ & H1 & _). apply bind_ok in H1 as (? & ? & ? & _ & H1 & _). apply ret_ok in H1 as [<- _]. right. exists b, nb. auto. }
      destruct X as [->|(b & nb & E & Hb & Hl)]; [apply (ra_process_evc g i _ n n W Hn); intros b E; discriminate E|]. apply (ra_process_evc g i _ n nb W Hn). intros b' E'. rewrite E in E'. injection E' as <-. split; [exact Hb|].
      rewrite (pk_level _ PN) in Hl. rewrite (pk_level _ (N _ _ Hb)) in Hl. destruct (n_parsed n); try destruct Hev. destruct (n_parsed nb) as [|?|[?|? ?]|?|?]; try discriminate Hl. exact I. }
    assert (HD : ~ is_evc (n_parsed n) -> Raises (process_dimable g i (n_parsed n) (option_map fst base) (obind base snd))) by (intros He; exact (ra_process_dimable _ _ _ _ _ _ W Hn Hv Hd He)).
    destruct (n_parsed n) as [|?|?|?|?]; try (apply HD; intros []). apply HE. exact I.
Qed.
Lemma ra_nodes l : forall g, WF g -> NK g -> DI g -> NoDup l -> (forall i, In i l -> unprocessed g i = true) -> Raises (foldM process_node g l).
Proof.
  induction l as [|i l IH]; intros g W N D ND Hl; cbn [foldM]; [ra|]. inversion ND as [|? ? Hi ND']. subst. apply bind_raises; [apply ra_process_node; auto; apply Hl; now left|].
  intros ws g1 H1. assert (S1 := process_step _ _ _ _ W H1). apply IH; [exact (st_wf _ _ _ S1)|exact (NI_process _ _ PK_closed _ _ _ _ W N H1)|exact (di_process _ _ _ _ W D H1)|exact ND'|].
  intros j Hj. assert (Hu := Hl j (or_intror Hj)). unfold unprocessed in *. destruct (get_node g j) as [m|] eqn:Em; [|discriminate Hu]. rewrite (st_keeps _ _ _ S1 j m); [exact Hu|intros ->; contradiction|exact Em].
Qed.
Lemma di_nodes l : forall g ws g', WF g -> DI g -> foldM process_node g l = (ws, Ok g') -> DI g'.
Proof.
  induction l as [|i l IH]; intros g ws g' W D H; cbn [foldM] in H; [apply ret_ok in H as [<- _]; exact D|]. apply bind_ok in H as (w1 & g1 & w2 & H1 & H2 & _).
  exact (IH _ _ _ (process_node_WF _ _ _ _ W H1) (di_process _ _ _ _ W D H1) H2).
Qed.
Lemma NK_nodes l : forall g ws g', WF g -> NK g -> foldM process_node g l = (ws, Ok g') -> NK g'.
Proof.
  induction l as [|i l IH]; intros g ws g' W D H; cbn [foldM] in H; [apply ret_ok in H as [<- _]; exact D|]. apply bind_ok in H as (w1 & g1 & w2 & H1 & H2 & _).
  exact (IH _ _ _ (process_node_WF _ _ _ _ W H1) (NI_process _ _ PK_closed _ _ _ _ W D H1) H2).
Qed.
Lemma po_nodes l : forall g ws g', WF g -> CE g -> NK g -> PO g -> foldM process_node g l = (ws, Ok g') -> PO g'.
Proof.
  induction l as [|h l IH]; intros g ws g' W C N P H; cbn [foldM] in H; [apply ret_ok in H as [<- _]; exact P|]. apply bind_ok in H as (w1 & g1 & w2 & H1 & H2 & _).
  exact (IH _ _ _ (process_node_WF _ _ _ _ W H1) (ce_process _ _ _ _ W C H1) (NI_process _ _ PK_closed _ _ _ _ W N H1) (po_process _ _ _ _ W C (fun j n Hn => pk_level _ (N j n Hn)) P H1) H2).
Qed.
Record Sound (g : graph) : Prop := { sd_wf : WF g; sd_phi : PhI g; sd_nk : NK g; sd_di : DI g; sd_ce : CE g; sd_pu : PU g; sd_po : PO g }.
(** the loop check (resolver.py:73-76) never finds the elements of the round before: those have been processed *)
Lemma ra_rounds fuel : forall g prev, Sound g -> (forall i, In i prev -> unprocessed g i = false) -> Raises (rounds fuel g prev) /\ forall ws g', rounds fuel g prev = (ws, Ok g') -> Sound g'.
Proof.
  induction fuel as [|f IH]; intros g prev [W P N D C U O] HP; cbn [rounds]; [split; [ra|discriminate]|].
  assert (RP : Raises (resolve_placeholders g)) by (apply ra_phs; [exact W|exact C|exact U|apply (wf_phs_nd _ W)|intros h; apply (wf_phs _ W)]).
  assert (NEXT : forall ws g1, resolve_placeholders g = (ws, Ok g1) -> let m := match topological_sorted g1 (find_processable g1) with [] => ret g1 | nodes => raise_if (list_nat_eqb nodes prev) LoopException "Stuck in a loop" ;;; g2 <- foldM process_node g1 nodes ;; rounds f g2 nodes end in
    Raises m /\ forall ws g', m = (ws, Ok g') -> Sound g').
  { intros ws g1 H1. destruct (resolve_phs_spec _ _ _ W H1) as (W1 & K1 & K2). assert (P1 := phi_phs _ _ _ _ P H1). assert (D1 := di_phs _ _ _ _ D H1). assert (C1 := ce_phs _ _ _ _ C H1). assert (U1 := pu_phs _ _ _ _ C U H1). assert (O1 := po_phs _ _ _ _ O H1). assert (N1 := NI_resolve_phs PK _ _ _ H1 N).
    destruct (topological_sorted_spec g1 (find_processable g1) W1) as (ND & _ & Hin). set (nodes := topological_sorted g1 (find_processable g1)) in *. clearbody nodes. cbn zeta.
    destruct nodes as [|x l]; [split; [ra|intros w g' E; apply ret_ok in E as [<- _]; now split]|]. destruct (list_nat_eqb (x :: l) prev) eqn:El.
    { exfalso. apply list_nat_eqb_eq in El. subst prev. assert (Hx := HP x (or_introl eq_refl)). assert (Hx' := proj2 (proj1 (Hin x) (or_introl eq_refl))). unfold unprocessed in *.
      destruct (get_node g1 x) as [n|] eqn:En; [|discriminate Hx']. apply K2 in En. rewrite En in Hx. congruence. }
    change (raise_if false LoopException "Stuck in a loop") with (ret tt). rewrite !bind_ret_l.
    assert (HU : forall i, In i (x :: l) -> unprocessed g1 i = true) by (intros i Hi; exact (proj2 (proj1 (Hin i) Hi))).
    assert (REST : forall w2 g2, foldM process_node g1 (x :: l) = (w2, Ok g2) -> Raises (rounds f g2 (x :: l)) /\ forall ws g', rounds f g2 (x :: l) = (ws, Ok g') -> Sound g').
    { intros w2 g2 H2. destruct (nodes_step _ _ _ _ W1 ND H2) as (W2 & _ & D2). apply IH.
      - split; [exact W2| |exact (NK_nodes _ _ _ _ W1 N1 H2)|exact (di_nodes _ _ _ _ W1 D1 H2)|exact (ce_nodes _ _ _ _ W1 C1 H2)|exact (pu_nodes _ _ _ _ W1 C1 U1 H2)|exact (po_nodes _ _ _ _ W1 C1 N1 O1 H2)]. apply (phi_nodes (x :: l) g1 w2 g2 W1 P1); [|exact H2]. intros i Hi. assert (UU := HU i Hi). apply Hin in Hi as [Hi _].
        split; [unfold unprocessed in UU; unfold is_elem; now destruct (get_node g1 i)|now apply processable_free].
      - intros i Hi. destruct (D2 i Hi) as (n & Hn & Hd). unfold unprocessed. now rewrite Hn, Hd. }
    split.
    - apply bind_raises; [now apply ra_nodes|]. intros w2 g2 H2. exact (proj1 (REST w2 g2 H2)).
    - intros w g' H. apply bind_ok in H as (w3 & g2 & w4 & H2 & H3 & _). exact (proj2 (REST w3 g2 H2) _ _ H3). }
  split.
  - apply bind_raises; [exact RP|]. intros ws g1 H1. exact (proj1 (NEXT ws g1 H1)).
  - intros w g' H. apply bind_ok in H as (w1 & g1 & w2 & H1 & H & _). exact (proj2 (NEXT w1 g1 H1) _ _ H).
Qed.
(** ** the bottom-up pass: every index is an element *)
Lemma ra_node_processed g i : is_elem g i = true -> Raises (node_processed g i).
Proof. intros H. apply is_elem_node in H as (n & H). unfold node_processed. rewrite H. ra. Qed.
Lemma parents_elem g i p l : get_element_parents g i = p :: l -> is_elem g p = true.
Proof. intros E. assert (H : In p (get_element_parents g i)) by (rewrite E; now left). apply element_parents_In in H as (t & _ & _ & H). exact H. Qed.
Lemma value_kind g i n w v : NK g -> get_node g i = Some n -> node_processed g i = (w, Ok v) -> kind_match v (n_parsed n) /\ n_level n = level_of (n_parsed n).
Proof.
  intros N Hn H. assert (PN := N _ _ Hn). unfold node_processed in H. rewrite Hn in H. destruct (n_processed n) as [u|] eqn:E; [|discriminate]. apply ret_ok in H as [-> _]. split; [exact (proj2 (pk_val _ PN _ E))|apply (pk_level _ PN)].
Qed.
Lemma ra_parent_size g fuel : CE g -> NK g -> forall i l, lv g i l -> In l [LPeripheral; LCluster; LRegister] -> Raises (parent_size g fuel i).
Proof.
  intros C N. induction fuel as [|f IH]; intros i l Hl Hin; cbn [parent_size]; [ra|]. destruct (get_element_parents g i) as [|p ps] eqn:E; [ra|].
  assert (H : In p (get_element_parents g i)) by (rewrite E; now left). apply element_parents_In in H as (t & He & Ht & Hp). destruct (ce_child _ C _ _ _ He Ht) as (lp & li & Hlp & Hli & K). rewrite (lv_fun _ _ _ _ Hli Hl) in K.
  assert (Hlp' := Hlp). destruct Hlp' as (n & Hn & Ln). rewrite Hn, Ln. destruct lp; [ra|..].
  all: try (exfalso; cbn in Hin; intuition (subst; cbn in K; contradiction)).
  all: try (destruct l; cbn in K; try contradiction; cbn in Hin; intuition discriminate).
  all: (apply bind_raises; [now apply ra_node_processed|]); intros w v Hv; destruct (value_kind _ _ _ _ _ N Hn Hv) as [KM KL]; rewrite Ln in KL.
  all: destruct (n_parsed n) as [|?|[?|? ?]|?|?], v as [?|[?|? ?]|?]; try discriminate KL; try destruct KM.
  all: cbv match; destruct (processed_size _); [ra|]; eapply IH; [exact Hlp|cbn; auto].
Qed.
Lemma ra_children g l : (forall i, In i l -> is_elem g i = true) -> Raises (processed_children g l).
Proof.
  intros H. unfold processed_children. assert (K : forall i, In i (filter (fun i => negb (is_tmpl g i)) l) -> is_elem g i = true) by (intros i Hi; apply filter_In in Hi as [Hi _]; auto). revert K. clear H. generalize (filter (fun i => negb (is_tmpl g i)) l).
  intros k. induction k as [|i k IH]; intros K; cbn [mapM]; [ra|]. rewrite (K i (or_introl eq_refl)). apply ra_bind; [apply ra_node_processed; apply K; now left|]. intros v. apply ra_bind; [apply IH; intros j Hj; apply K; now right|]. intros vs. ra.
Qed.
Lemma size_kinds g l : forall m ws s, foldM (fun m i => v <- node_processed g i ;; match v with PrRc _ => if is_tmpl g i then ret m else s <- child_size g i v ;; ret (if (m <? s)%Z then s else m) | _ => raise ResolveException "node is not of type Register or Cluster" end) m l = (ws, Ok s) ->
  forall i, In i l -> exists w x, node_processed g i = (w, Ok (PrRc x)).
Proof.
  induction l as [|j l IH]; intros m ws s H i Hi; [destruct Hi|]. cbn [foldM] in H. apply bind_ok in H as (w1 & m' & w2 & H1 & H2 & _). destruct Hi as [<-|Hi]; [|exact (IH _ _ _ H2 i Hi)].
  apply bind_ok in H1 as (w3 & v & w4 & H1 & H3 & _). destruct v as [?|x|?]; try discriminate H3. exists w3, x. exact H1.
Qed.
(** what a peripheral or a cluster contains are registers and clusters: an edge to another peripheral would be one to an element that still waits for its base *)
Lemma child_rc g i l c t w v : CE g -> NK g -> PO g -> lv g i l -> l = LPeripheral \/ l = LCluster -> In (i, c, t) (g_edges g) -> is_elem g c = true -> node_processed g c = (w, Ok v) -> exists x, v = PrRc x.
Proof.
  intros C N P Hl Hl' He Hc Hv. apply is_elem_node in Hc as (m & Hm). destruct (value_kind _ _ _ _ _ N Hm Hv) as [KM KL]. assert (Ic : lv g c (n_level m)) by (exists m; auto).
  assert (Q : n_level m = LRegister \/ n_level m = LCluster).
  { destruct (is_child t) eqn:Et.
    - destruct (ce_child _ C _ _ _ He Et) as (la & lb & Ha & Hb & K). rewrite (lv_fun _ _ _ _ Ha Hl), (lv_fun _ _ _ _ Hb Ic) in K. destruct Hl' as [-> | ->], (n_level m); try destruct K; auto.
    - destruct t; try discriminate Et; [destruct (no_ph_edge _ _ _ _ _ C Hl Ic He)|]. destruct (ce_der _ C _ _ He) as (la & Ha & Hb). assert (E : n_level m = l) by (rewrite <- (lv_fun _ _ _ _ Hb Ic); exact (lv_fun _ _ _ _ Ha Hl)).
      destruct Hl' as [-> | ->]; [exfalso|now right]. unfold node_processed in Hv. rewrite Hm in Hv. destruct (n_processed m) as [u|] eqn:Eu; [|discriminate Hv]. destruct (pk_val _ (N _ _ Hm) _ Eu) as [Hd _].
      destruct (P c m Hm E) as [P1 _]. rewrite Hd in P1. apply (deps_edge _ _ _ _ He eq_refl). lia. }
  rewrite KL in Q. destruct v as [?|x|?]; [|eauto|]; exfalso; destruct (n_parsed m) as [|?|[?|? ?]|?|?]; try destruct KM; destruct Q; discriminate.
Qed.
Lemma ra_finalize_rcs g i0 l0 l : CE g -> NK g -> PO g -> lv g i0 l0 -> l0 = LPeripheral \/ l0 = LCluster -> (forall j, In j l -> is_elem g j = true /\ exists t, In (i0, j, t) (g_edges g)) -> Raises (finalize_rcs g l).
Proof.
  intros C N P Hi0 Hl0 HL. assert (H : forall j, In j l -> is_elem g j = true) by (intros j Hj; apply (HL j Hj)). unfold finalize_rcs. apply bind_raises.
  - unfold calculate_size. apply ra_bind; [|intros m; ra]. apply ra_foldM. intros m i Hi. apply bind_raises; [apply ra_node_processed; auto|]. intros w v Hv. destruct (HL i Hi) as [Ei (t & Ht)]. destruct (child_rc _ _ _ _ _ _ _ C N P Hi0 Hl0 Ht Ei Hv) as [x ->]. destruct (is_tmpl g i); [ra|]. apply ra_bind; [|intros; ra]. unfold child_size. destruct (processed_size _); [ra|].
    assert (He := H i Hi). apply is_elem_node in He as (n & Hn). destruct (value_kind _ _ _ _ _ N Hn Hv) as [KM KL]. eapply (ra_parent_size g _ C N i (n_level n)); [exists n; auto|]. rewrite KL. destruct (n_parsed n) as [|?|[?|? ?]|?|?], x as [?|? ?]; try destruct KM; cbn; auto.
  - intros ws s Hs. apply bind_raises; [now apply ra_children|]. intros w2 vs Hv.
    assert (K : forall v, In v vs -> exists x, v = PrRc x).
    { intros v Hin. destruct (processed_children_ok _ _ _ _ Hv v Hin) as (c & n & Hc & Hn & _ & Hp). unfold calculate_size in Hs. apply bind_ok in Hs as (w3 & m & w4 & Hs & _). destruct (size_kinds _ _ _ _ _ Hs c Hc) as (w5 & x & Hx).
      unfold node_processed in Hx. rewrite Hn, Hp in Hx. apply ret_ok in Hx as [Ev _]. exists x. congruence. }
    apply ra_bind; [|intros xs; ra]. clear Hv. induction vs as [|v vs IH]; cbn [mapM]; [ra|]. destruct (K v (or_introl eq_refl)) as [x Ex]. subst v. apply ra_bind; [exact I|]. intros a. apply ra_bind; [apply IH; intros u Hu; apply K; now right|]. intros b. ra.
Qed.
Lemma ra_finalize_node st i l : CE (fst st) -> NK (fst st) -> PO (fst st) -> is_elem (fst st) i = true -> (forall j, In j l -> is_elem (fst st) j = true /\ exists t, In (i, j, t) (g_edges (fst st))) -> Raises (finalize_node st i l).
Proof.
  destruct st as [g res]. cbn [fst]. intros C N P Hi HL. assert (Hl : forall j, In j l -> is_elem g j = true) by (intros j Hj; apply (HL j Hj)). assert (He := Hi). apply is_elem_node in Hi as (n & Hn). unfold finalize_node. rewrite Hn. destruct (n_tmpl n); [ra|]. destruct (n_level n) eqn:L.
  - apply bind_raises; [now apply ra_children|]. intros w vs Hv. apply ra_bind; [|intros; ra]. assert (K : forall v, In v vs -> exists x, v = PrPer x).
    { intros v Hin. destruct (processed_children_ok _ _ _ _ Hv v Hin) as (c & m & Hc & Hm & _ & Hp). destruct (HL c Hc) as [Ec (t & Ht)].
      assert (PM := N _ _ Hm). assert (KM := proj2 (pk_val _ PM _ Hp)). assert (KL := pk_level _ PM). assert (Q : n_level m = LPeripheral \/ n_level m = LDevice).
      { destruct (is_child t) eqn:Et.
        - destruct (ce_child _ C _ _ _ Ht Et) as (la & lb & Ha & Hb & K). assert (Ia : lv g i LDevice) by (exists n; auto). assert (Ib : lv g c (n_level m)) by (exists m; auto). rewrite (lv_fun _ _ _ _ Ha Ia), (lv_fun _ _ _ _ Hb Ib) in K. left. destruct (n_level m); try destruct K; reflexivity.
        - destruct t; try discriminate Et.
          + exfalso. assert (Ia : lv g i LDevice) by (exists n; auto). assert (Ib : lv g c (n_level m)) by (exists m; auto). exact (no_ph_edge _ _ _ _ _ C Ia Ib Ht).
          + destruct (ce_der _ C _ _ Ht) as (la & Ha & Hb). assert (Ia : lv g i LDevice) by (exists n; auto). assert (Ib : lv g c (n_level m)) by (exists m; auto). right. rewrite <- (lv_fun _ _ _ _ Hb Ib). exact (lv_fun _ _ _ _ Ha Ia). }
      rewrite KL in Q. destruct v as [x|[?|? ?]|?]; [eauto|..]; destruct (n_parsed m) as [|?|[?|? ?]|?|?]; try destruct KM; destruct Q; discriminate. }
    clear Hv. induction vs as [|v vs IH]; cbn [mapM]; [ra|]. destruct (K v (or_introl eq_refl)) as [x ->]. apply ra_bind; [exact Logic.I|]. intros a. apply ra_bind; [apply IH; intros u Hu; apply K; now right|]. intros b. ra.
  - apply bind_raises; [now apply ra_node_processed|]. intros w v Hv. destruct (value_kind _ _ _ _ _ N Hn Hv) as [K KL]. rewrite L in KL. apply ra_bind; [eapply (ra_finalize_rcs g i (n_level n)); auto; exists n; auto|]. intros r. destruct (n_parsed n) as [|?|[?|? ?]|?|?], v as [?|[?|? ?]|?]; try discriminate KL; try destruct K. ra.
  - apply bind_raises; [now apply ra_node_processed|]. intros w v Hv. destruct (value_kind _ _ _ _ _ N Hn Hv) as [K KL]. rewrite L in KL. apply ra_bind; [eapply (ra_finalize_rcs g i (n_level n)); auto; exists n; auto|]. intros r. destruct (n_parsed n) as [|?|[?|? ?]|?|?], v as [?|[?|? ?]|?]; try discriminate KL; try destruct K. ra.
  - apply bind_raises; [now apply ra_node_processed|]. intros w v Hv. destruct (value_kind _ _ _ _ _ N Hn Hv) as [K KL]. rewrite L in KL. apply ra_bind; [now apply ra_children|]. intros vs. unfold as_fld. apply ra_bind; [ra|]. intros fs. destruct (n_parsed n) as [|?|[?|? ?]|?|?], v as [?|[?|? ?]|?]; try discriminate KL; try destruct K. ra.
  - apply ra_bind; [now apply ra_node_processed|]. intros v. destruct v as [?|?|f]; [ra|ra|]. unfold finalize_evcs. apply ra_bind; [|intros cs; ra]. apply ra_bind; [|intros cs; ra].
    clear HL. induction l as [|j l IH]; cbn [mapM]; [ra|]. assert (Hj := Hl j (or_introl eq_refl)). apply is_elem_node in Hj as (m & ->). apply ra_bind; [destruct (n_parsed m); ra; apply ra_evc|]. intros c. apply ra_bind; [apply IH; intros k Hk; apply Hl; now right|]. intros cs. ra.
  - ra.
Qed.
Lemma set_processed_elem g i v j : is_elem g j = true -> is_elem (set_processed g i v) j = true.
Proof.
  intros H. unfold set_processed. destruct (get_node g i) as [n|] eqn:E; [|exact H]. unfold is_elem. rewrite (set_node_node _ _ _ _ _ E). destruct (Nat.eqb i j); [reflexivity|exact H].
Qed.
Lemma finalize_elem st i l ws st' : finalize_node st i l = (ws, Ok st') -> forall j, is_elem (fst st) j = true -> is_elem (fst st') j = true.
Proof.
  destruct st as [g res]. unfold finalize_node. intros H j Hj. destruct (get_node g i) as [n|]; [|discriminate]. destruct (n_tmpl n); [apply ret_ok in H as [<- _]; exact Hj|].
  destruct (n_level n); minv; try exact Hj; try (repeat match goal with H : context [match ?v with PrPer _ => _ | _ => _ end] |- _ => destruct v as [?|[?|? ?]|?] end; minv; cbn [fst]; try (apply set_processed_elem; exact Hj)).
Qed.
Lemma finalize_ce st i l ws st' : CE (fst st) -> PO (fst st) -> finalize_node st i l = (ws, Ok st') -> CE (fst st') /\ PO (fst st') /\ g_edges (fst st') = g_edges (fst st).
Proof.
  destruct st as [g res]. cbn [fst]. intros C O.
  assert (P : forall v, CE (set_processed g i v) /\ PO (set_processed g i v) /\ g_edges (set_processed g i v) = g_edges g).
  { intros v. unfold set_processed. destruct (get_node g i) as [m|] eqn:E; [|auto]. split; [apply (ce_set _ _ _ _ C E); reflexivity|]. split; [|reflexivity].
    apply (po_step g); [exact O|]. intros j q Hj Hl. right. split; [unfold deps; cbn; lia|]. rewrite (set_node_node _ _ _ _ _ E) in Hj. destruct (Nat.eqb_spec i j) as [<-|_]; [|exists q; auto]. injection Hj as <-. exists m. auto. }
  unfold finalize_node. intros H. destruct (get_node g i) as [n|]; [|discriminate]. destruct (n_tmpl n); [apply ret_ok in H as [<- _]; auto|].
  destruct (n_level n); minv; auto; try (repeat match goal with H : context [match ?v with PrPer _ => _ | _ => _ end] |- _ => destruct v as [?|[?|? ?]|?] end; minv; cbn [fst]; auto).
Qed.
Lemma ra_bottom_up g0 fuel : WF g0 -> forall pending queue st, CE (fst st) -> PO (fst st) -> g_edges (fst st) = g_edges g0 -> NK (fst st) -> res_ok PK (snd st) -> (forall j, get_slot g0 j <> None -> is_elem (fst st) j = true) -> Raises (bottom_up g0 fuel pending queue st).
Proof.
  intros W. induction fuel as [|f IH]; intros pending queue st C O G N R Hs; destruct queue as [|i q]; cbn [bottom_up]; try solve [ra]. apply bind_raises.
  - destruct (successors g0 i) as [|c cs] eqn:E; [ra|]. assert (K : forall j, In j (c :: cs) -> get_slot g0 i <> None /\ get_slot g0 j <> None) by (intros j Hj; rewrite <- E in Hj; apply successors_In in Hj as (t & Hj); exact (wf_edge _ W _ _ _ Hj)).
    apply ra_finalize_node; [exact C|exact N|exact O|apply Hs; apply (K c); now left|]. intros j Hj. split; [apply Hs; now apply K|]. rewrite G. rewrite <- E in Hj. now apply successors_In in Hj.
  - intros ws st' H. destruct (fold_left step_parent (parents_of g0 i) (pending, q)) as [pending' queue'].
    assert (Y : CE (fst st') /\ PO (fst st') /\ g_edges (fst st') = g_edges g0) by (destruct (successors g0 i) as [|c cs]; [apply ret_ok in H as [<- _]; auto|]; destruct (finalize_ce _ _ _ _ _ C O H) as (Y1 & Y3 & Y2); split; [exact Y1|split; [exact Y3|congruence]]). destruct Y as (C' & O' & G').
    assert (X : NK (fst st') /\ res_ok PK (snd st') /\ forall j, is_elem (fst st) j = true -> is_elem (fst st') j = true).
    { destruct (successors g0 i) as [|c cs]; [apply ret_ok in H as [<- _]; auto|]. destruct (NI_finalize _ _ PK_closed _ _ _ _ _ N R H) as [N' R']. split; [exact N'|]. split; [exact R'|exact (finalize_elem _ _ _ _ _ H)]. }
    destruct X as (N' & R' & E'). apply IH; auto.
Qed.
Lemma node_indices_In g i : In i (node_indices g) <-> get_slot g i <> None.
Proof.
  unfold node_indices. rewrite filter_In, in_seq. split.
  - intros [_ H]. destruct (get_slot g i); [discriminate|discriminate H].
  - intros H. split; [|destruct (get_slot g i); [reflexivity|congruence]]. split; [lia|]. unfold get_slot in H. destruct (Nat.lt_ge_cases i (length (g_slots g))) as [L|L]; [exact L|]. rewrite nth_overflow in H by exact L. congruence.
Qed.
Lemma all_elem g : Sound g -> unprocessed_nodes g = [] -> forall j, get_slot g j <> None -> is_elem g j = true.
Proof.
  intros S H j Hj. unfold is_elem, get_node. destruct (get_slot g j) as [[n|path]|] eqn:E; [reflexivity| |congruence]. exfalso. destruct (sd_phi _ S j path E) as (c & n & _ & Hc & Hd).
  assert (K : In c (unprocessed_nodes g)); [|rewrite H in K; destruct K]. unfold unprocessed_nodes. apply filter_In. split; [apply node_indices_In; apply get_node_slot in Hc; congruence|]. unfold unprocessed. now rewrite Hc, Hd.
Qed.
Lemma ra_resolve fuel ps : Raises (resolve_peripherals fuel ps).
Proof.
  unfold resolve_peripherals. apply bind_raises; [destruct (proj1 (initialization_ok ps)) as (ws & g & E); rewrite E; exact I|]. intros ws g0 H.
  assert (S0 : Sound g0). { split; [exact (proj1 (init_grows _ _ _ H))|exact (phi_start _ _ _ H)|exact (NI_init _ _ PK_closed _ _ _ (fun _ _ => Logic.I) H)|exact (di_start _ _ _ H)|exact (ce_start _ _ _ H)|exact (pu_start _ _ _ H)|exact (po_start _ _ _ H)]. }
  destruct (ra_rounds fuel g0 [] S0 ltac:(intros i [])) as [R1 R2]. apply bind_raises; [exact R1|]. intros w1 g H1. assert (S := R2 _ _ H1).
  apply bind_raises.
  - destruct (unprocessed_nodes g) as [|x l]; [ra|]. apply ra_bind; [|intros a; ra]. assert (K : forall h, In h (g_phs g) -> exists path, get_slot g h = Some (NPh path)) by (intros h; apply (wf_phs _ (sd_wf _ S))).
    revert K. generalize (g_phs g). intros k. induction k as [|h k IH]; intros K; cbn [mapM]; [ra|]. destruct (K h (or_introl eq_refl)) as (path & Hp). apply ra_bind; [apply ra_ok; apply child_okay; [exact (sd_ce _ S)|exact (sd_pu _ S)|exists path; exact Hp]|]. intros c. apply ra_bind; [apply IH; intros h' Hh'; apply K; now right|]. intros cs. ra.
  - intros w2 u H2. assert (E : unprocessed_nodes g = []) by (destruct (unprocessed_nodes g); [reflexivity|apply bind_ok in H2 as (? & ? & ? & _ & H2 & _); discriminate H2]). clear H2.
    apply ra_bind; [|intros r; ra]. unfold bottom_up_traversal. apply ra_bottom_up; [exact (sd_wf _ S)|exact (sd_ce _ S)|exact (sd_po _ S)|reflexivity|exact (sd_nk _ S)|intros l E'; discriminate E'|exact (all_elem _ S E)].
Qed.
