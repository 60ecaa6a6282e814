(** * EffectFacts: which warnings and exceptions each part of the pipeline can issue. *)
From Verif Require Import Base PyStr PyInt Types DimModel EnumModel ElemModel FinalModel ResolveModel.

(** all warnings of [m] satisfy [P], its exception (if any) satisfies [Q] *)
Definition Emits {A} (P : warning -> Prop) (Q : exn_class -> Prop) (m : M A) : Prop :=
  Forall P (fst m) /\ match snd m with Ok _ => True | Err e => Q (ex_class e) end.

Section E.
  Variables (P : warning -> Prop) (Q : exn_class -> Prop).
  Lemma emits_ret {A} (a : A) : Emits P Q (ret a).
  Proof. split; [constructor|exact I]. Qed.
  Lemma emits_raise {A} c s : Q c -> Emits P Q (@raise A c s).
  Proof. intros H. split; [constructor|exact H]. Qed.
  Lemma emits_warn w : P w -> Emits P Q (warn w).
  Proof. intros H. split; [now repeat constructor|exact I]. Qed.
  Lemma emits_warn_if b w : P w -> Emits P Q (warn_if b w).
  Proof. intros H. destruct b; [now apply emits_warn|apply emits_ret]. Qed.
  Lemma emits_raise_if b c s : Q c -> Emits P Q (raise_if b c s).
  Proof. intros H. destruct b; [now apply emits_raise|apply emits_ret]. Qed.
  Lemma emits_bind {A B} (m : M A) (f : A -> M B) : Emits P Q m -> (forall ws a, m = (ws, Ok a) -> Emits P Q (f a)) -> Emits P Q (bind m f).
  Proof.
    intros [H1 H2] Hf. destruct m as [ws [a|e]]; cbn in *.
    - destruct (Hf ws a eq_refl) as [H3 H4]. destruct (f a) as [w2 r]. cbn in *. split; [apply Forall_app; now split|exact H4].
    - split; assumption.
  Qed.
  Lemma emits_mapM {A B} (f : A -> M B) l : (forall x, In x l -> Emits P Q (f x)) -> Emits P Q (mapM f l).
  Proof.
    induction l as [|x l IH]; intros H; cbn; [apply emits_ret|].
    apply emits_bind; [apply H; now left|]. intros. apply emits_bind; [apply IH; intros; apply H; now right|]. intros. apply emits_ret.
  Qed.
  Lemma emits_iterM {A} (f : A -> M unit) l : (forall x, In x l -> Emits P Q (f x)) -> Emits P Q (iterM f l).
  Proof.
    induction l as [|x l IH]; intros H; cbn; [apply emits_ret|].
    apply emits_bind; [apply H; now left|]. intros. apply IH; intros; apply H; now right.
  Qed.
  Lemma emits_foldM {A B} (f : B -> A -> M B) l : (forall b x, In x l -> Emits P Q (f b x)) -> forall b, Emits P Q (foldM f b l).
  Proof.
    induction l as [|x l IH]; intros H b; cbn; [apply emits_ret|].
    apply emits_bind; [apply H; now left|]. intros. apply IH; intros; apply H; now right.
  Qed.
End E.

(** the warnings of the resolver (dim, bit positions, enumerated values) *)
Definition resolver_warning (w : warning) : Prop :=
  match w with
  | W_DimNoPlaceholder _ | W_BitRangeSwapped _ _ | W_FieldMsbLsb _ _ _ | W_EnumReserved | W_EnumDupName _ | W_EnumDupValue _ _ | W_EnumDefaultValue _ _ => True
  | _ => False
  end.
(** the exceptions of the resolver *)
Definition resolver_exn (c : exn_class) : Prop := match c with ParserException | NotImplementedError | OutOfFuel => False | _ => True end.
Definition resolver_exn' (c : exn_class) : Prop := resolver_exn c \/ c = OutOfFuel.

Ltac em := repeat
  match goal with
  | |- True => exact I
  | |- resolver_exn _ => exact I
  | |- resolver_exn' _ => first [left; exact I | right; reflexivity]
  | |- resolver_warning _ => exact I
  | H : ?g |- ?g => exact H
  | |- Emits _ _ (ret _) => apply emits_ret
  | |- Emits _ _ (raise _ _) => apply emits_raise
  | |- Emits _ _ (raise_if _ _ _) => apply emits_raise_if
  | |- Emits _ _ (warn _) => apply emits_warn
  | |- Emits _ _ (warn_if _ _) => apply emits_warn_if
  | |- Emits _ _ (bind _ _) => apply emits_bind; [|intros ? ? _]
  | |- Emits _ _ (mapM _ _) => apply emits_mapM; intros ? _
  | |- Emits _ _ (iterM _ _) => apply emits_iterM; intros ? _
  | |- Emits _ _ (foldM (build_rc _) _ _) => fail 1
  | |- Emits _ _ (foldM _ _ _) => apply emits_foldM; intros ? ? _
  | |- Emits _ _ (match ?x with _ => _ end) => destruct x
  | |- Emits _ _ (let _ := _ in _) => cbn zeta
  | |- Emits _ _ ((fun _ => _) _) => cbn beta
  end.

Notation RE := (Emits resolver_warning resolver_exn).
Notation RE' := (Emits resolver_warning resolver_exn').
Lemma weak {A} (m : M A) : RE m -> RE' m.
Proof. intros [H1 H2]. split; [exact H1|]. destruct (snd m); [exact I|]. now left. Qed.

Lemma re_int2 s : RE (int2_or_pe s). Proof. unfold int2_or_pe. em. Qed.
Lemma re_wild s : RE (process_binary_value_with_wildcard s).
Proof. unfold process_binary_value_with_wildcard. em; apply re_int2. Qed.
Lemma re_convert s : RE (convert_enumerated_value s).
Proof. unfold convert_enumerated_value. em. apply re_wild. Qed.
Lemma re_resolve_wildcard p : RE (resolve_wildcard p).
Proof. unfold resolve_wildcard. em; apply re_convert. Qed.
Lemma re_valid st v : RE (is_value_valid st v).
Proof. unfold is_value_valid. em. Qed.
Lemma re_validate l : forall st, RE (validate_all st l).
Proof. induction l as [|v l IH]; intros st; cbn [validate_all]; em. - apply re_valid. - apply IH. Qed.
Lemma re_evs l : forall st, RE (process_evs_loop st l).
Proof. induction l as [|v l IH]; intros st; cbn [process_evs_loop]; em. - apply re_resolve_wildcard. - apply re_validate. - apply IH. Qed.
Lemma re_evc p lsb msb : RE (create_evc p lsb msb).
Proof. unfold create_evc, process_enumerated_values, extend_with_default. em. apply re_evs. Qed.

Lemma re_dim_index d i : RE (process_dim_index d i).
Proof. unfold process_dim_index. em. Qed.
Lemma re_dimension n d dim idx k : RE (extract_dimension n d dim idx k).
Proof. unfold extract_dimension, process_dim, process_dim_array, process_dim_list. em; apply re_dim_index. Qed.
Lemma re_node_dimension p b : RE (node_dimension p b).
Proof. unfold node_dimension. em; apply re_dimension. Qed.
Lemma re_msb_lsb f b : RE (process_field_msb_lsb f b).
Proof. unfold process_field_msb_lsb. em. Qed.
Lemma re_field i n f b : RE (process_field i n f b).
Proof. unfold process_field. em. apply re_msb_lsb. Qed.
Lemma re_create index name display p base : RE (create_element index name display p base).
Proof. unfold create_element. em; apply re_field. Qed.
Lemma re_creates names : forall index displays p base, RE (create_elements index names displays p base).
Proof. induction names as [|n l IH]; intros; cbn [create_elements]; em. - apply re_create. - apply IH. Qed.

Lemma re_add_edge g p c t : RE (add_edge_m g p c t). Proof. unfold add_edge_m. em. Qed.
Lemma re_add_child g p n t : RE (add_element_child g p n t).
Proof. unfold add_element_child. em. apply re_add_edge. Qed.
Lemma re_add_ph g p c : RE (add_placeholder g p c).
Proof. unfold add_placeholder. em. apply re_add_edge. Qed.
Lemma re_build_element g p t n l q d : RE (build_element g p t n l q d).
Proof. unfold build_element. em. - apply re_add_child. - apply re_add_ph. Qed.
Lemma re_build_field p g f : RE (build_field p g f).
Proof. unfold build_field, build_evc. em; apply re_build_element. Qed.
Lemma re_build_rc x : forall p g, RE (build_rc p g x).
Proof.
  induction x as [r|c l IH] using svd_rc_ind'; intros p g; cbn [build_rc].
  - em; [apply re_build_element|apply re_build_field].
  - em; [apply re_build_element|]. apply emits_foldM. intros b y Hy. rewrite Forall_forall in IH. now apply IH.
Qed.
Lemma re_initialization ps : RE (initialization ps).
Proof.
  unfold initialization, construct_graph, build_per, link_placeholder, get_placeholder_co_parent.
  em; try apply re_build_element; try apply re_add_edge. apply emits_foldM. intros. apply re_build_rc.
Qed.

Lemma re_search_loop g sub part final excl lv : (forall i, RE (sub i)) -> forall nodes acc, RE (search_loop g sub part final excl lv nodes acc).
Proof. intros Hs. induction nodes as [|i l IH]; intros acc; cbn [search_loop]; em; try apply IH. apply Hs. Qed.
Lemma re_search g parts : forall excl lv nodes, RE (search_nodes g parts excl lv nodes).
Proof. induction parts as [|a l IH]; intros; cbn [search_nodes]; em. apply re_search_loop. intros i. apply IH. Qed.
Lemma re_path g i lv p : RE (path_resolving g i lv p).
Proof. unfold path_resolving. em; apply re_search. Qed.
Lemma re_resolve_ph g ph : RE (resolve_placeholder g ph).
Proof. unfold resolve_placeholder, get_placeholder_parent, get_placeholder_child. em; apply re_path. Qed.
Lemma re_replicate g s t : RE (replicate_descendants g s t).
Proof. unfold replicate_descendants, copy_edges_of, attach. em; apply re_add_edge. Qed.
Lemma re_update g i b v t : RE (update_node g i b v t).
Proof. unfold update_node. em; apply re_replicate. Qed.
Lemma re_update_dim g i b vs tv : RE (update_dim_node g i b vs tv).
Proof. unfold update_dim_node. em; try apply re_update; try apply re_add_child; try apply re_add_edge. Qed.
Lemma re_process_node g i : RE (process_node g i).
Proof.
  unfold process_node, process_evc_node, process_dimable.
  em; try apply re_replicate; try apply re_node_dimension; try apply re_creates; try apply re_update; try apply re_update_dim.
Qed.
Lemma re_rounds fuel : forall g prev, RE' (rounds fuel g prev).
Proof.
  induction fuel as [|f IH]; intros; cbn [rounds]; em; unfold resolve_placeholders; em; try apply weak, re_resolve_ph; try apply weak, re_process_node. apply IH.
Qed.
Lemma re_node_processed g i : RE (node_processed g i).
Proof. unfold node_processed. em. Qed.
Lemma re_parent_size g fuel : forall i, RE' (parent_size g fuel i).
Proof. induction fuel as [|f IH]; intros; cbn [parent_size]; em; try apply weak, re_node_processed; try apply IH. Qed.
Lemma re_finalize_rcs g l : RE' (finalize_rcs g l).
Proof.
  unfold finalize_rcs, calculate_size, processed_children, as_irc, child_size.
  em; try apply weak, re_node_processed; try apply re_parent_size.
Qed.
Lemma re_finalize_node st i l : RE' (finalize_node st i l).
Proof.
  unfold finalize_node, processed_children, as_per, as_fld, finalize_evcs.
  em; try apply weak, re_node_processed; try apply re_finalize_rcs; try apply weak, re_evc.
Qed.
Lemma re_bottom_up g0 fuel : forall pending queue st, RE' (bottom_up g0 fuel pending queue st).
Proof.
  induction fuel as [|f IH]; intros pending queue st; destruct queue as [|i q]; cbn [bottom_up]; em; try apply re_finalize_node; apply IH.
Qed.
Lemma re_resolve fuel ps : RE' (resolve_peripherals fuel ps).
Proof.
  unfold resolve_peripherals, bottom_up_traversal, get_placeholder_child. em; try apply weak, re_initialization; try apply re_rounds; try apply re_bottom_up.
Qed.

