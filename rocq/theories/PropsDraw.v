(** * PropsDraw: the pictures in the log of the resolver (C61). *)
From Coq Require Import Permutation.
From Verif Require Import Base PyStr PyInt Types ElemModel FinalModel ResolveModel ProcessModel LogModel DrawModel SpecLog SpecDraw GraphFacts TextFacts LogFacts LogListed DrawFacts Samples PropsDevice PropsLog.
Local Open Scope string_scope.

(** ** Texts *)
Lemma shown_eq t : match t with Some (String _ _ as s) => s | _ => "no name" end = shown_name t.
Proof. destruct t as [[|c t]|]; reflexivity. Qed.
Lemma level_text_label l : level_text l = level_label l.
Proof. destruct l; reflexivity. Qed.
Lemma node_label_text s k i : node_label s k i = box_text s k i.
Proof. reflexivity. Qed.

Definition lacks (c : ascii) (s : string) : Prop := sforallb (fun x => negb (Ascii.eqb x c)) s = true.
Lemma cut_last c a : forall b a' b', lacks c b -> lacks c b' -> a ++ String c b = a' ++ String c b' -> a = a' /\ b = b'.
Proof.
  assert (N : forall s u v, lacks c (u ++ String c v) -> s = u -> False).
  { intros s u v H _. induction u as [|x u IH]; unfold lacks in H; cbn in H; apply andb_prop in H as [H1 H2]; [now rewrite Ascii.eqb_refl in H1|now apply IH]. }
  induction a as [|x a IH]; intros b [|x' a'] b' Hb Hb' E; cbn in E.
  - injection E as ->. auto.
  - injection E as _ ->. exfalso. exact (N a' a' b' Hb eq_refl).
  - injection E as _ <-. exfalso. exact (N a a b Hb' eq_refl).
  - injection E as -> E. destruct (IH b a' b' Hb Hb' E) as [-> ->]. auto.
Qed.
Lemma word_lacks c s : (forall x, is_word x || Ascii.eqb x "-" = true -> Ascii.eqb x c = false) -> sforallb (fun x => is_word x || Ascii.eqb x "-") s = true -> lacks c s.
Proof. intros H. unfold lacks. induction s as [|x s IH]; cbn; [reflexivity|]. intros K. apply andb_prop in K as [K1 K2]. rewrite (H x K1). cbn. now apply IH. Qed.
Lemma digits_space i : lacks " " (str_of_Z (Z.of_nat i)).
Proof. apply (word_lacks " "); [|apply str_of_Z_word]. intros x. destruct (Ascii.eqb_spec x " ") as [->|]; [vm_compute; discriminate|reflexivity]. Qed.
Lemma level_paren l : lacks "(" (level_label l ++ ")") .
Proof. destruct l; reflexivity. Qed.
Lemma box_inj s k i s' k' i' : lacks "(" (k ++ ")") -> lacks "(" (k' ++ ")") -> box_text s k i = box_text s' k' i' -> s = s' /\ k = k' /\ i = i'.
Proof.
  intros Hk Hk' E. unfold box_text in E.
  assert (R : forall s k i, s ++ newline ++ "(" ++ k ++ ")" ++ newline ++ "rx_index: " ++ str_of_Z (Z.of_nat i) = (((s ++ newline) ++ String "(" (k ++ ")")) ++ (newline ++ "rx_index:")) ++ String " " (str_of_Z (Z.of_nat i))).
  { intros. rewrite <- !sapp_assoc. cbn. rewrite <- !sapp_assoc. reflexivity. }
  rewrite !R in E. apply cut_last in E; [|apply digits_space|apply digits_space]. destruct E as [E Ei]. apply str_of_Z_inj, Nat2Z.inj in Ei.
  assert (C : forall t a b, a ++ t = b ++ t -> a = b).
  { clear. intros t a. induction a as [|x a IH]; intros [|y b] H; cbn in H; [reflexivity| | |].
    - exfalso. apply (f_equal String.length) in H. cbn in H. rewrite slen_app in H. lia.
    - exfalso. apply (f_equal String.length) in H. cbn in H. rewrite slen_app in H. lia.
    - injection H as -> H. now rewrite (IH b H). }
  apply C in E. apply cut_last in E; [|exact Hk|exact Hk']. destruct E as [E1 E2]. apply C in E1. apply C in E2. auto.
Qed.
Lemma level_label_inj a b : level_label a = level_label b -> a = b.
Proof. destruct a, b; intros H; try reflexivity; discriminate H. Qed.
Lemma box_not_device s k i : box_text s k i <> "Device".
Proof.
  unfold box_text. intros E. assert (H : forall a b, a ++ newline ++ b = "Device" -> False); [|exact (H _ _ E)]. clear. intros a b E.
  assert (K : forall u, sforallb (fun c => negb (Ascii.eqb c (ascii_of_N 10))) (u ++ newline ++ b) = false).
  { induction u as [|c u IH]; [reflexivity|]. change (String c u ++ newline ++ b) with (String c (u ++ newline ++ b)). cbn [sforallb]. rewrite IH. apply andb_false_r. }
  specialize (K a). rewrite E in K. discriminate K.
Qed.
Lemma placeholder_paren : lacks "(" ("Placeholder" ++ ")").
Proof. reflexivity. Qed.

(** ** C61 *)
(** what is drawn for [x] *)
Definition drawn (i : nat) (x : gnode) (a : attrs) : Prop := exists text colour, Box i x text colour /\ Attr a "label" text /\ Attr a "color" colour /\ Attr a "fontcolor" colour.
Lemma node_drawn i x : drawn i x (node_attr i x).
Proof.
  assert (A : forall l c, Attr [("label", l); ("color", c); ("fontcolor", c)] "label" l /\ Attr [("label", l); ("color", c); ("fontcolor", c)] "color" c /\ Attr [("label", l); ("color", c); ("fontcolor", c)] "fontcolor" c).
  { intros. split; [constructor|]. split; [constructor; [discriminate|constructor]|]. constructor; [discriminate|]. constructor; [discriminate|]. constructor. }
  destruct x as [n|path]; cbn [node_attr].
  - destruct (level_eqb (n_level n) LDevice) eqn:E.
    + exists "Device", "blue". split; [|apply A]. constructor. destruct (n_level n); [reflexivity|discriminate E..].
    + assert (N : n_level n <> LDevice) by (intros K; rewrite K in E; discriminate). rewrite shown_eq, level_text_label, node_label_text.
      destruct (n_done n) eqn:D; eexists; eexists; (split; [|apply A]); [now apply box_processed|now apply box_open].
  - eexists; eexists. split; [|apply A]. constructor.
Qed.
(** C61: a picture of a graph has one box for each node and one arrow for each edge; text and colours are those of the legend *)
Theorem C61_picture : forall g,
  NoDup (map fst (dot_nodes (dot_of g)))
  /\ (forall i, In i (map fst (dot_nodes (dot_of g))) <-> get_slot g i <> None)
  /\ (forall i a, In (i, a) (dot_nodes (dot_of g)) -> exists x, get_slot g i = Some x /\ drawn i x a)
  /\ Forall2 (fun e s => fst s = fst e /\ exists colour, Arrow (e_typ e) colour /\ Attr (snd s) "color" colour) (g_edges g) (dot_edges (dot_of g)).
Proof.
  intros g.
  assert (F : forall l, incl l (node_indices g) -> map fst (flat_map (fun i => match get_slot g i with Some x => [(i, node_attr i x)] | None => [] end) l) = l).
  { induction l as [|i l IH]; intros Hl; [reflexivity|]. cbn [flat_map]. rewrite map_app, IH by (intros y Hy; apply Hl; now right).
    assert (Hi := Hl i (or_introl eq_refl)). apply node_indices_In in Hi. destruct (get_slot g i); [reflexivity|congruence]. }
  cbn [dot_of dot_nodes dot_edges]. rewrite F by apply incl_refl. split; [|split; [|split]].
  - unfold node_indices. apply NoDup_filter, seq_NoDup.
  - apply node_indices_In.
  - intros i a H. apply in_flat_map in H as (j & _ & H). destruct (get_slot g j) as [x|] eqn:E; [|destruct H]. destruct H as [H|[]]. injection H as <- <-. exists x. split; [exact E|apply node_drawn].
  - induction (g_edges g) as [|[[a b] t] l IH]; constructor; [|exact IH]. cbn. split; [reflexivity|]. destruct t; eexists; (split; [constructor|constructor]).
Qed.

(** the text and the colour of a box tell what it stands for *)
Lemma box_alike i j x y t c : Box i x t c -> Box j y t c -> alike x y /\ (i = j \/ exists a b, x = NElem a /\ y = NElem b /\ n_level a = LDevice /\ n_level b = LDevice).
Proof.
  assert (D : forall n m l, n_level n <> LDevice -> n_level m <> LDevice -> n_done n = l -> n_done m = l ->
    box_text (shown_name (n_name n)) (level_label (n_level n)) i = box_text (shown_name (n_name m)) (level_label (n_level m)) j -> alike (NElem n) (NElem m) /\ i = j).
  { intros n m l Hn Hm Dn Dm E. apply box_inj in E; [|apply level_paren..]. destruct E as (E1 & E2 & E3). apply level_label_inj in E2. cbn. split; [split; [exact E2|right; split; [exact E1|congruence]]|exact E3]. }
  intros H1 H2. inversion H1 as [n Hn|n Hn Dn|n Hn Dn|p]; subst; inversion H2 as [m Hm E1 E2 E3|m Hm Dm E1 E2 E3|m Hm Dm E1 E2 E3|q E1 E2 E3]; subst; try discriminate.
  - split; [cbn; split; [congruence|now left]|]. right. now exists n, m.
  - exfalso. symmetry in E2. exact (box_not_device _ _ _ (eq_sym E2)).
  - exfalso. exact (box_not_device _ _ _ (eq_sym E2)).
  - destruct (D n m true Hn Hm Dn Dm (eq_sym E2)). auto.
  - destruct (D n m false Hn Hm Dn Dm (eq_sym E2)). auto.
  - symmetry in E2. apply box_inj in E2; [|apply placeholder_paren..]. cbn. tauto.
Qed.
Lemma attr_fun l k v w : Attr l k v -> Attr l k w -> v = w.
Proof. intros H. revert w. induction H as [k v l|k' v' l k v Hne _ IH]; intros w K; inversion K; subst; auto; contradiction. Qed.
(** C61: no two boxes of a picture have the same text, except for boxes of the device *)
Theorem C61_texts_distinct : forall g i j a b t, In (i, a) (dot_nodes (dot_of g)) -> In (j, b) (dot_nodes (dot_of g)) -> Attr a "label" t -> Attr b "label" t -> t <> "Device" -> i = j.
Proof.
  intros g i j a b t Hi Hj Ha Hb Ht. destruct (C61_picture g) as (_ & _ & H & _). destruct (H _ _ Hi) as (x & _ & t1 & c1 & B1 & A1 & _). destruct (H _ _ Hj) as (y & _ & t2 & c2 & B2 & A2 & _).
  assert (t1 = t) by exact (attr_fun _ _ _ _ A1 Ha). assert (t2 = t) by exact (attr_fun _ _ _ _ A2 Hb). subst t1 t2.
  assert (F : forall k z c, Box k z t c -> exists s l, lacks "(" (l ++ ")") /\ t = box_text s l k).
  { intros k z c B. inversion B; subst; [congruence|eexists; eexists; split; [apply level_paren|reflexivity]..|]. eexists; eexists. split; [apply placeholder_paren|reflexivity]. }
  destruct (F _ _ _ B1) as (s1 & l1 & P1 & E1). destruct (F _ _ _ B2) as (s2 & l2 & P2 & E2). rewrite E1 in E2. now apply box_inj in E2.
Qed.
(** C61: a picture tells everything the resolver works with, except for the contents of the elements: graphs with the same boxes and arrows have the same nodes, names (up to
    elements without a name), levels, states, open references and edges *)
Theorem C61_readable : forall g1 g2, Permutation (dot_nodes (dot_of g1)) (dot_nodes (dot_of g2)) -> Permutation (dot_edges (dot_of g1)) (dot_edges (dot_of g2)) ->
  (forall i x, get_slot g1 i = Some x -> exists y, get_slot g2 i = Some y /\ alike x y)
  /\ (forall i y, get_slot g2 i = Some y -> exists x, get_slot g1 i = Some x /\ alike x y)
  /\ Permutation (g_edges g1) (g_edges g2).
Proof.
  assert (N : forall g1 g2, Permutation (dot_nodes (dot_of g1)) (dot_nodes (dot_of g2)) -> forall i x, get_slot g1 i = Some x -> exists y, get_slot g2 i = Some y /\ alike x y).
  { intros g1 g2 HP i x Hx. destruct (C61_picture g1) as (_ & Hk & H & _). assert (Hi : In i (map fst (dot_nodes (dot_of g1)))) by (apply Hk; congruence). apply in_map_iff in Hi as ((i' & a) & E & Hi). cbn in E. subst i'.
    destruct (H _ _ Hi) as (x' & Hx' & t1 & c1 & B1 & A1 & A2 & _). rewrite Hx in Hx'. injection Hx' as <-. apply (Permutation_in _ HP) in Hi. destruct (C61_picture g2) as (_ & _ & H2 & _). destruct (H2 _ _ Hi) as (y & Hy & t2 & c2 & B2 & A3 & A4 & _).
    assert (t2 = t1) by exact (attr_fun _ _ _ _ A3 A1). assert (c2 = c1) by exact (attr_fun _ _ _ _ A4 A2). subst t2 c2. exists y. split; [exact Hy|]. exact (proj1 (box_alike _ _ _ _ _ _ B1 B2)). }
  intros g1 g2 H1 H2. split; [exact (N g1 g2 H1)|]. split.
  - intros i y Hy. destruct (N g2 g1 (Permutation_sym H1) i y Hy) as (x & Hx & HA). exists x. split; [exact Hx|]. destruct x, y; cbn in *; try contradiction; [|congruence]. destruct HA as [E HA]. split; [congruence|]. destruct HA as [HA|[E1 E2]]; [left; congruence|right; split; congruence].
  - cbn [dot_of dot_edges] in H2. apply Permutation_map_inv in H2 as (l & E & HP). apply Permutation_sym in HP.
    assert (Inj : forall l1 l2 : list edge, map (fun e => (e_src e, e_dst e, edge_attr (e_typ e))) l1 = map (fun e => (e_src e, e_dst e, edge_attr (e_typ e))) l2 -> l1 = l2).
    { clear. induction l1 as [|[[a b] t] l1 IH]; intros [|[[a' b'] t'] l2] E; try discriminate E; [reflexivity|]. cbn in E. injection E as -> -> Et E. rewrite (IH _ E). destruct t, t'; try discriminate Et; reflexivity. }
    rewrite (Inj _ _ E). exact HP.
Qed.

(** the graph shown last *)
Definition drawings (items : list item) : list graph := flat_map (fun i => match i with Drawing g => [g] | _ => [] end) items.
Lemma drawings_app a b : drawings (a ++ b) = (drawings a ++ drawings b)%list.
Proof. apply flat_map_app. Qed.
Lemma last_app {A} (a b : list A) d : last (a ++ b) d = last b (last a d).
Proof.
  revert a d. induction b as [|z b IH]; intros a d; [now rewrite app_nil_r|]. rewrite (app_assoc a [z] b : (a ++ z :: b = (a ++ [z]) ++ b)%list), IH, last_last. destruct b; [reflexivity|]. clear. revert a0. induction b as [|w b IHb]; intros u; [reflexivity|]. exact (IHb w).
Qed.
Lemma refs_none g l g' : References g l [] g' -> g' = g.
Proof. remember [] as paths eqn:E. induction 1; [reflexivity|auto|discriminate]. Qed.
Lemma last_drawing g rs g' : Run g rs g' -> forall n, last (drawings (rounds_items n rs)) g = g'.
Proof.
  induction 1 as [g paths g1 R E|g paths g1 nodes ws g2 rs g' R E Ne F _ IH]; intros n; cbn [rounds_items]; rewrite drawings_app, last_app; unfold round_items; cbn [rd_paths rd_graph rd_nodes rd_after].
  - destruct paths as [|p paths]; [apply refs_none in R; subst; reflexivity|reflexivity].
  - rewrite <- (IH (S n)). f_equal. rewrite !drawings_app, !last_app. destruct nodes as [|x nodes]; [congruence|]. reflexivity.
Qed.
(** C61: the last picture in the log of a description that is accepted is blue: everything has been processed, no reference is left *)
Theorem C61_finished : forall render modify pack ct pt fuel path d s ws dev,
  process_logged (get_svg render) modify pack ct pt fuel (Some path) d = (s, (ws, Ok dev)) ->
  exists items pictures g, Shown (picture (get_svg render) modify) 0 items (lg_body s) pictures
    /\ (exists before, drawings items = (before ++ [g])%list)
    /\ forall i a, In (i, a) (dot_nodes (dot_of g)) -> Attr a "color" "blue" /\ Attr a "fontcolor" "blue".
Proof.
  intros render modify pack ct pt fuel path d s ws dev H. unfold process_logged in H. destruct (resolve_peripherals_l (get_svg render) modify pack ct pt fuel (sdv_periphs d) (new_log (Some path))) as [s0 [w0 r]] eqn:HR.
  injection H as -> H. apply bind_ok in H as (w1 & l & w2 & H & _ & _). destruct r as [l'|e]; [|discriminate H]. apply resolve_logs in HR.
  destruct HR as (_ & w3 & g & w4 & g0 & rs & g' & Hg & Hg0 & HRun & HU & (h & k & A & B & _)). destruct (link_todo _ _ _ _ _ Hg Hg0) as [W _].
  exists (start_items g g0 ++ rounds_items 1 rs ++ end_items)%list, k, g'. cbn [new_log lg_body lg_svgs] in *. split; [rewrite B; exact A|]. split.
  - rewrite !drawings_app. cbn [drawings start_items end_items flat_map List.app]. rewrite app_nil_r. assert (L := last_drawing _ _ _ HRun 1). destruct (drawings (rounds_items 1 rs)) as [|x xs] eqn:Ed; [cbn in L; subst; now exists [g]|].
    assert (Hne : x :: xs <> []) by discriminate. destruct (exists_last Hne) as (b & z & E). exists (g :: g0 :: b). rewrite E. rewrite E in L. rewrite last_app in L. cbn in L. subst z. reflexivity.
  - intros i a Hi. destruct (C61_picture g') as (_ & _ & HP & _). destruct (HP _ _ Hi) as (x & Hx & t & c & HB & _ & A2 & A3).
    assert (P' : PhI g') by (apply (phi_run _ _ _ HRun W); eapply phi_start; unfold initialization; unfold bind; rewrite Hg; rewrite Hg0; reflexivity).
    assert (HDone : forall j m, get_node g' j = Some m -> n_done m = true).
    { intros j m Hm. destruct (n_done m) eqn:D; [reflexivity|]. exfalso. assert (K : In j (unprocessed_nodes g')). { unfold unprocessed_nodes. apply filter_In. split; [apply node_indices_In; apply get_node_slot in Hm; congruence|]. unfold unprocessed. rewrite Hm, D. reflexivity. } rewrite HU in K. destruct K. }
    assert (c = "blue"); [|subst; auto]. inversion HB as [n Hn|n Hn Dn|n Hn Dn|p]; subst; try reflexivity.
    + exfalso. assert (K : get_node g' i = Some n) by now apply get_node_slot. apply HDone in K. congruence.
    + exfalso. destruct (P' i p Hx) as (c & m & _ & Hm & D). apply HDone in Hm. congruence.
Qed.
(** What does not hold: an element without a name and one called "no name" cannot be told apart *)
Theorem C61_no_name_refuted : exists n m i, n_name n <> n_name m /\ node_attr i (NElem n) = node_attr i (NElem m).
Proof. exists (mk_node None LEnum false PaDev None false), (mk_node (Some "no name") LEnum false PaDev None false), 7%nat. split; [discriminate|reflexivity]. Qed.
Print Assumptions C61_picture.
Print Assumptions C61_texts_distinct.
Print Assumptions C61_readable.
Print Assumptions C61_finished.

(** The sample: its pictures have red, black and blue boxes *)
Definition a_render (t : dot) : string + exn := inl (lines_text (map (fun ia => match snd ia with (_, l) :: (_, c) :: _ => c ++ " " ++ l | _ => "" end) (dot_nodes t))).
Notation drawn_log := (process_logged (get_svg a_render) with_number (fun t => t) "<body>BODY_CONTENT</body>" "<page>COMPRESSED_DATA</page>" 20 (Some "log.html") sample).
Example C61_nonvacuous : (exists dev, snd (snd drawn_log) = Ok dev) /\ (occurs "red " (lg_body (fst drawn_log)), occurs "black " (lg_body (fst drawn_log)), occurs "blue " (lg_body (fst drawn_log))) = (7, 55, 110)%nat.
Proof. split; [vm_compute; eexists; reflexivity|]. vm_compute. reflexivity. Qed.
