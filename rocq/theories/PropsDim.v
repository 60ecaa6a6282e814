(** * PropsDim: C05-C08, dim expansion. *)
From Verif Require Import Base PyStr PyInt Types DimModel EnumModel ElemModel ResolveModel SpecDim SpecElem DimFacts ElemFacts.

(** ** Vocabulary *)
(** the element's own value of an attribute or else its base's *)
Definition eff_dim (p : parsed) (bv : option processed) : option Z :=
  own_or (sd_dim (parsed_dim p)) (match bv with Some b => id_dim (processed_dim b) | None => None end).
Definition eff_inc (p : parsed) (bv : option processed) : option Z :=
  own_or (sd_inc (parsed_dim p)) (match bv with Some b => id_inc (processed_dim b) | None => None end).
Definition eff_index (p : parsed) (bv : option processed) : option string :=
  own_or (sd_index (parsed_dim p)) (match bv with Some b => id_index (processed_dim b) | None => None end).
(** base_bits of the base field *)
Definition bv_bits (bv : option processed) : option (Z * Z) :=
  match bv with Some (PrFld b) => Some (fb_msb (if_b b), fb_lsb (if_b b)) | _ => None end.
(** an array name contains [%s], a list name only %s *)
Definition is_array (name : string) : Prop := exists a b, name = (a ++ "[%s]" ++ b)%string.
Definition has_placeholder (name : string) : Prop := exists a b, name = (a ++ "%s" ++ b)%string.
(** [Placed p bv shift v]: the instance [v] lies at the element's own address (bits) plus [shift] *)
Definition Placed (p : parsed) (bv : option processed) (shift : Z) (v : processed) : Prop :=
  match p, v with
  | PaPer q, PrPer r => pb_base (ip_b r) = sp_base q + shift
  | PaRc (SClu q _), PrRc (IClu r _) => cb_offset (ic_b r) = sc_offset q + shift
  | PaRc (SReg q), PrRc (IReg r) => rb_offset (ir_b r) = sr_offset q + shift
  | PaFld q, PrFld r => exists m l, Bits q (bv_bits bv) m l /\ fb_msb (if_b r) = m + shift /\ fb_lsb (if_b r) = l + shift
  | _, _ => False
  end.

Lemma contains_spec sub s : contains sub s = true <-> exists a b, s = (a ++ sub ++ b)%string.
Proof.
  destruct (contains sub s) eqn:E; split; auto; try discriminate.
  - intros _. destruct (list_eq_dec Ascii.ascii_dec [] []) as [_|]; [|congruence].
    clear -E. revert E. induction s as [|c s IH]; intros E; cbn [contains] in E.
    + rewrite orb_false_r in E. exists "", "". destruct sub; [reflexivity|discriminate].
    + apply orb_true_iff in E as [E|E].
      * apply startswith_spec in E as [b ->]. exists "", b. reflexivity.
      * destruct (IH E) as (a & b & ->). exists (String c a), b. reflexivity.
  - intros (a & b & H). exfalso. apply contains_false_spec with (1 := E) (2 := H).
Qed.

Lemma create_elements_length p bv : forall names k displays ws vs, create_elements k names displays p bv = (ws, Ok vs) -> length vs = length names.
Proof.
  induction names as [|n names IH]; intros k displays ws vs H; cbn [create_elements] in H; minv; [reflexivity|].
  cbn. f_equal. eapply IH; eassumption.
Qed.
Lemma dim_shift_spec a inc k : dim_shift a inc k = a + default 0 inc * k.
Proof. destruct inc; cbn; lia. Qed.
Lemma eff_inc_spec p bv : id_inc (merge_dim (parsed_dim p) (option_map processed_dim bv)) = eff_inc p bv.
Proof. unfold eff_inc, merge_dim, merge, of_base, own_or. cbn. destruct (sd_inc (parsed_dim p)), bv; reflexivity. Qed.
Lemma eff_dim_spec p bv : id_dim (merge_dim (parsed_dim p) (option_map processed_dim bv)) = eff_dim p bv.
Proof. unfold eff_dim, merge_dim, merge, of_base, own_or. cbn. destruct (sd_dim (parsed_dim p)), bv; reflexivity. Qed.
Lemma eff_index_spec p bv : id_index (merge_dim (parsed_dim p) (option_map processed_dim bv)) = eff_index p bv.
Proof. unfold eff_index, merge_dim, merge, of_base, own_or. cbn. destruct (sd_index (parsed_dim p)), bv; reflexivity. Qed.

(** the base is of the same kind as the element (the resolver checks the levels) *)
Definition same_kind (p : parsed) (bv : option processed) : Prop :=
  match bv, p with
  | None, _ => True
  | Some (PrPer _), PaPer _ | Some (PrRc (IClu _ _)), PaRc (SClu _ _) | Some (PrRc (IReg _)), PaRc (SReg _) | Some (PrFld _), PaFld _ => True
  | _, _ => False
  end.

Lemma create_element_spec k name display p bv ws v : same_kind p bv -> create_element k name display p bv = (ws, Ok v) ->
  processed_name v = name /\ Placed p bv (default 0 (eff_inc p bv) * k) v.
Proof.
  intros Hk H. destruct p as [|p|[r|c l]|f|e]; cbn [create_element] in H; minv.
  - split; [reflexivity|]. cbn [Placed process_peripheral ip_b pb_base]. rewrite dim_shift_spec. rewrite <- eff_inc_spec. cbn [parsed_dim].
    destruct bv as [[b|[b|b ?]|b]|]; cbn in Hk |- *; try contradiction; reflexivity.
  - split; [reflexivity|]. cbn [Placed process_register ir_b rb_offset]. rewrite dim_shift_spec. rewrite <- eff_inc_spec. cbn [parsed_dim].
    destruct bv as [[b|[b|b ?]|b]|]; cbn in Hk |- *; try contradiction; reflexivity.
  - split; [reflexivity|]. cbn [Placed process_cluster ic_b cb_offset]. rewrite dim_shift_spec. rewrite <- eff_inc_spec. cbn [parsed_dim].
    destruct bv as [[b|[b|b ?]|b]|]; cbn in Hk |- *; try contradiction; reflexivity.
  - unfold process_field in Hm. minv. destruct a0 as [m lo]. split; [reflexivity|]. cbn [Placed].
    exists m, lo. split.
    + destruct (field_bits_spec f (option_map if_b (match bv with Some (PrFld b) => Some b | _ => None end)) m lo) as [H1 _].
      assert (H2 := H1 (ex_intro _ _ Hm0)). destruct bv as [[b|[b|b ?]|b]|]; exact H2.
    + cbn [if_b fb_msb fb_lsb fst snd]. rewrite !dim_shift_spec. rewrite <- eff_inc_spec. cbn [parsed_dim].
      destruct bv as [[b|[b|b ?]|b]|]; cbn in Hk |- *; try contradiction; split; reflexivity.
Qed.

Lemma create_elements_nth p bv : same_kind p bv -> forall names k displays ws vs, create_elements k names displays p bv = (ws, Ok vs) ->
  forall i v, nth_error vs i = Some v -> exists name, nth_error names i = Some name /\ processed_name v = name /\
    Placed p bv (default 0 (eff_inc p bv) * (k + Z.of_nat i)) v.
Proof.
  intros Hk. induction names as [|n names IH]; intros k displays ws vs H i v Hi; cbn [create_elements] in H; minv; [destruct i; discriminate|].
  destruct i as [|i]; cbn in Hi.
  - injection Hi as <-. exists n. apply create_element_spec in Hm as [H1 H2]; [|exact Hk]. split; [reflexivity|]. split; [exact H1|].
    now rewrite Z.add_0_r.
  - eapply IH in Hm0 as (name & H1 & H2 & H3); [|exact Hi]. exists name. split; [exact H1|]. split; [exact H2|].
    replace (k + Z.of_nat (S i)) with (k + 1 + Z.of_nat i) by lia. exact H3.
Qed.

Lemma extract_dim_true name display dim oi k ws names displays : extract_dimension name display dim oi k = (ws, Ok (true, names, displays)) ->
  exists d, dim = Some d /\ contains "%s" name = true /\ ws = [] /\ process_dim name display (Some d) oi k = ([], Ok (names, displays)).
Proof.
  unfold extract_dimension. intros H. minv. destruct dim as [d|].
  - destruct (contains "%s" name) eqn:E; minv; [|discriminate]. exists d. destruct a2 as [n1 d1]. cbn [fst snd] in *. subst.
    assert (Hp := process_dim_ok _ _ _ _ _ _ _ _ Hm2). destruct Hp as (? & _ & _ & -> & _). repeat split; auto.
  - minv. discriminate.
Qed.

(** ** C05 *)
(** An element (peripheral, cluster, register or field, derived or not) that expands as dim element: there are exactly [dim]
    instances; instance i has the name with every placeholder replaced by the i-th index and lies at the element's own
    position plus i * dimIncrement. *)
Theorem C05_dim_instances : forall p bv ws names displays ws' vs,
  same_kind p bv ->
  node_dimension p bv = (ws, Ok (true, names, displays)) -> create_elements 0 names displays p bv = (ws', Ok vs) ->
  exists n idx ph, eff_dim p bv = Some n /\ 1 <= n /\ Z.of_nat (length vs) = n /\ length idx = length vs /\
    (is_array (parsed_name p) /\ ph = "[%s]" \/ ~ is_array (parsed_name p) /\ ph = "%s") /\
    forall i v, nth_error vs i = Some v ->
      exists ix, nth_error idx i = Some ix /\ Subst ph ix (parsed_name p) (processed_name v) /\
                 Placed p bv (Z.of_nat i * default 0 (eff_inc p bv)) v.
Proof.
  intros p bv ws names displays ws' vs Hk Hd Hc. unfold node_dimension in Hd. rewrite eff_dim_spec, eff_index_spec in Hd.
  apply extract_dim_true in Hd as (d & Hd & Hph & _ & Hp). apply process_dim_ok in Hp as (idx & Hl & H1 & _ & Hn & _ & Hcp & _ & _).
  exists d, idx, (placeholder (parsed_name p)).
  assert (Hlen := create_elements_length _ _ _ _ _ _ _ Hc). rewrite Hn, map_length in Hlen.
  repeat split; auto; try lia.
  - unfold placeholder. destruct (contains "[%s]" (parsed_name p)) eqn:E.
    + left. split; [|reflexivity]. now apply contains_spec.
    + right. split; [|reflexivity]. intros (a & b & H). apply contains_false_spec with (1 := E) (2 := H).
  - intros i v Hi. destruct (create_elements_nth _ _ Hk _ _ _ _ _ Hc i v Hi) as (name & Hin & Hnm & Hpl).
    rewrite Hn in Hin. rewrite nth_error_map in Hin. destruct (nth_error idx i) as [ix|] eqn:Ei; [|discriminate]. injection Hin as Hin.
    exists ix. split; [reflexivity|]. rewrite Hnm, <- Hin. split; [apply replace_Subst, placeholder_ne|].
    replace (Z.of_nat i * default 0 (eff_inc p bv)) with (default 0 (eff_inc p bv) * (0 + Z.of_nat i)) by lia. exact Hpl.
Qed.

(** an element without effective dim gives exactly one instance, at its own position, under its own name *)
Theorem C05_no_dim_single : forall p bv ws names displays ws' vs,
  same_kind p bv ->
  node_dimension p bv = (ws, Ok (false, names, displays)) -> create_elements 0 names displays p bv = (ws', Ok vs) ->
  ~ has_placeholder (parsed_name p) /\ (eff_dim p bv = None \/ In (W_DimNoPlaceholder (parsed_name p)) ws) /\
  exists v, vs = [v] /\ processed_name v = parsed_name p /\ Placed p bv 0 v.
Proof.
  intros p bv ws names displays ws' vs Hk Hd Hc. unfold node_dimension in Hd. rewrite eff_dim_spec, eff_index_spec in Hd.
  unfold extract_dimension in Hd. minv.
  assert (Hx : a0 = None /\ contains "%s" (parsed_name p) = false /\ (eff_dim p bv = None \/ ws = [W_DimNoPlaceholder (parsed_name p)])).
  { destruct (eff_dim p bv) as [d|]; [|minv; auto]. destruct (contains "%s" (parsed_name p)) eqn:E; minv; [discriminate|]. auto. }
  destruct Hx as (-> & Hc0 & Hx). cbn [process_dim] in *. minv. cbn [fst snd] in *. cbn [create_elements hd tl] in Hc. minv.
  split; [|split].
  - intros (x & y & Hxy). apply contains_false_spec with (1 := Hc0) (2 := Hxy).
  - destruct Hx as [Hx|Hw]; [now left|right]. rewrite Hw. now left.
  - eexists. split; [reflexivity|]. eapply create_element_spec in Hm; [|exact Hk]. rewrite Z.mul_0_r in Hm. exact Hm.
Qed.

(** ** C06 *)
(** different indices give different names *)
Theorem C06_names_differ : forall p bv ws names displays ws' vs,
  same_kind p bv ->
  node_dimension p bv = (ws, Ok (true, names, displays)) -> create_elements 0 names displays p bv = (ws', Ok vs) ->
  (is_array (parsed_name p) -> NoDup (map processed_name vs)) /\
  exists idx, (forall i v, nth_error vs i = Some v -> exists ix, nth_error idx i = Some ix) /\ length idx = length vs /\
    (NoDup idx -> NoDup (map processed_name vs)) /\
    (~ is_array (parsed_name p) -> exists d, eff_dim p bv = Some d /\ process_dim_index d (eff_index p bv) = ([], Ok idx)).
Proof.
  intros p bv ws names displays ws' vs Hk Hd Hc. unfold node_dimension in Hd. rewrite eff_dim_spec, eff_index_spec in Hd.
  apply extract_dim_true in Hd as (d & Hd & Hph & _ & Hp). apply process_dim_ok in Hp as (idx & Hl & H1 & _ & Hn & _ & Hcp & Ha & Hli).
  assert (Hlen := create_elements_length _ _ _ _ _ _ _ Hc). rewrite Hn, map_length in Hlen.
  assert (Hnames : map processed_name vs = names).
  { clear - Hc Hk. revert Hc. generalize 0. revert displays ws' vs. induction names as [|n names IH]; intros displays ws' vs k Hc; cbn in Hc; minv; [reflexivity|].
    cbn. apply create_element_spec in Hm as [-> _]; [|exact Hk]. f_equal. eapply IH; eassumption. }
  assert (Hnd : NoDup idx -> NoDup (map processed_name vs)).
  { intros H. rewrite Hnames, Hn. apply replace_map_nodup; [apply placeholder_ne|exact Hcp|exact H]. }
  split.
  - intros Harr. apply Hnd. apply contains_spec in Harr. unfold placeholder in Ha. rewrite Harr in Ha. rewrite Ha by reflexivity. apply str_range_nodup.
  - exists idx. repeat split; auto.
    + intros i v Hi. assert (Hlt : (i < length idx)%nat). { rewrite <- Hlen. apply nth_error_Some. congruence. }
      apply nth_error_Some in Hlt. destruct (nth_error idx i); [eauto|congruence].
    + intros Harr. exists d. split; [exact Hd|]. apply Hli. unfold placeholder. destruct (contains "[%s]" (parsed_name p)) eqn:E; [|reflexivity].
      exfalso. apply Harr. now apply contains_spec.
Qed.

(** ** C07 *)
(** [Index d t l]: the dimIndex text [t] (None: absent) denotes the list of indices [l]; [d] is dim *)
Inductive Index (d : Z) : option string -> list string -> Prop :=
| Ix_none : Index d None (map str_of_Z (zrange 0 d))
| Ix_range : forall a b, digit_string a -> digit_string b -> dec_val 0 a <= dec_val 0 b ->
    Index d (Some (a ++ "-" ++ b)%string) (map str_of_Z (zrange (dec_val 0 a) (dec_val 0 b + 1)))
| Ix_letters : forall x y, is_upper x = true -> is_upper y = true -> (code x < code y)%N ->
    Index d (Some (single x ++ "-" ++ single y)%string) (map (fun i => single (ascii_of_N (Z.to_N i))) (zrange (Z.of_N (code x)) (Z.of_N (code y) + 1)))
| Ix_words : forall s ws, WordList s ws -> Index d (Some s) ws.

(** every notation of the standard denotes its list; it is used if it has dim entries and dim >= 1, otherwise ProcessException *)
Theorem C07_dim_index : forall d t l, Index d t l ->
  (1 <= d -> Z.of_nat (length l) = d -> process_dim_index d t = ([], Ok l)) /\
  (d < 1 \/ Z.of_nat (length l) <> d -> exists s, process_dim_index d t = ([], Err (E ProcessException s))).
Proof.
  intros d t l H.
  assert (Hlt : d < 1 -> exists s, process_dim_index d t = ([], Err (E ProcessException s))).
  { intros Hd. unfold process_dim_index, raise_if. replace (d <? 1) with true by lia. eexists. reflexivity. }
  assert (Hge : 1 <= d -> process_dim_index d t = (if Z.of_nat (length l) =? d then ret l else raise ProcessException "dim index does not match the dim value")).
  { intros Hd. destruct H as [|a b Ha Hb Hab|x y Hx Hy Hxy|s ws Hw].
    - rewrite dim_index_none by exact Hd. rewrite map_length, zrange_length. replace (Z.of_nat (Z.to_nat (d - 0)) =? d) with true by lia. reflexivity.
    - rewrite dim_index_range by assumption. replace (dec_val 0 b <? dec_val 0 a) with false by lia.
      rewrite map_length, zrange_length. replace (Z.of_nat (Z.to_nat (dec_val 0 b + 1 - dec_val 0 a))) with (dec_val 0 b - dec_val 0 a + 1) by lia. reflexivity.
    - rewrite dim_index_letters by assumption. replace (code y <=? code x)%N with false by (symmetry; apply N.leb_gt; exact Hxy).
      rewrite map_length, zrange_length. replace (Z.of_nat (Z.to_nat (Z.of_N (code y) + 1 - Z.of_N (code x)))) with (Z.of_N (code y) - Z.of_N (code x) + 1) by lia. reflexivity.
    - destruct Hw as [w Hw|w sp s ws Hw Hsp Hl].
      + rewrite dim_index_word by assumption. cbn [length]. change (Z.of_nat 1) with 1. rewrite Z.eqb_sym. reflexivity.
      + rewrite (dim_index_words d w sp s ws) by assumption. reflexivity. }
  split.
  - intros Hd Hl. rewrite (Hge Hd). replace (Z.of_nat (length l) =? d) with true by lia. reflexivity.
  - intros [Hd|Hl]; [auto|]. destruct (Z_lt_le_dec d 1) as [Hd|Hd]; [auto|]. rewrite (Hge Hd).
    replace (Z.of_nat (length l) =? d) with false by lia. eexists. reflexivity.
Qed.

(** descending ranges are rejected *)
Theorem C07_descending : forall d,
  (forall a b, digit_string a -> digit_string b -> dec_val 0 b < dec_val 0 a ->
     exists s, process_dim_index d (Some (a ++ "-" ++ b)%string) = ([], Err (E ProcessException s))) /\
  (forall x y, is_upper x = true -> is_upper y = true -> (code y <= code x)%N ->
     exists s, process_dim_index d (Some (single x ++ "-" ++ single y)%string) = ([], Err (E ProcessException s))).
Proof.
  intros d. split.
  - intros a b Ha Hb Hab. destruct (Z_lt_le_dec d 1) as [Hd|Hd].
    + unfold process_dim_index, raise_if. replace (d <? 1) with true by lia. eexists. reflexivity.
    + rewrite dim_index_range by assumption. replace (dec_val 0 b <? dec_val 0 a) with true by lia. eexists. reflexivity.
  - intros x y Hx Hy Hxy. destruct (Z_lt_le_dec d 1) as [Hd|Hd].
    + unfold process_dim_index, raise_if. replace (d <? 1) with true by lia. eexists. reflexivity.
    + rewrite dim_index_letters by assumption. replace (code y <=? code x)%N with true by (symmetry; apply N.leb_le; exact Hxy). eexists. reflexivity.
Qed.

(** ** C08 *)
(** the four ill-formed shapes raise ProcessException *)
Theorem C08_malformed_rejected_partial : forall p bv,
  (eff_dim p bv = None -> has_placeholder (parsed_name p) -> exists s, node_dimension p bv = ([], Err (E ProcessException s))) /\
  (forall d, eff_dim p bv = Some d -> has_placeholder (parsed_name p) -> d < 1 -> exists ws s, node_dimension p bv = (ws, Err (E ProcessException s))) /\
  (forall d f, p = PaFld f -> eff_dim p bv = Some d -> is_array (parsed_name p) -> exists ws s, node_dimension p bv = (ws, Err (E ProcessException s))) /\
  (forall d q, p = PaPer q -> eff_dim p bv = Some d -> has_placeholder (parsed_name p) -> ~ is_array (parsed_name p) ->
     exists ws s, node_dimension p bv = (ws, Err (E ProcessException s))) /\
  (forall ws e, node_dimension p bv = (ws, Err e) -> ex_class e = ProcessException \/
     exists t, eff_index p bv = Some t /\ (re_num_range t = true \/ re_letter_range t = true) /\ (ex_class e = ValueError \/ ex_class e = TypeError)).
Proof.
  intros p bv. unfold node_dimension. rewrite eff_dim_spec, eff_index_spec.
  assert (Harr : is_array (parsed_name p) -> has_placeholder (parsed_name p)).
  { intros (a & b & ->). exists (a ++ "[")%string, ("]" ++ b)%string. clear. induction a as [|c a IH]; [reflexivity|]. simpl. f_equal. exact IH. }
  repeat split.
  - intros Hd Hp. rewrite Hd. apply contains_spec in Hp. unfold extract_dimension. rewrite Hp. eexists. reflexivity.
  - intros d Hd Hp Hlt. rewrite Hd. apply contains_spec in Hp. unfold extract_dimension. rewrite Hp.
    set (dis := or_if_none _ _). unfold raise_if at 1. rewrite !bind_ret_l.
    replace (match dis with Some _ | _ => false end) with false by (destruct dis; reflexivity).
    unfold raise_if at 1. rewrite bind_ret_l. unfold process_dim. unfold raise_if at 1. replace (d <? 1) with true by lia. eexists. eexists. reflexivity.
  - intros d f -> Hd Ha. rewrite Hd. assert (Hp := Harr Ha). apply contains_spec in Hp. apply contains_spec in Ha. unfold extract_dimension. rewrite Hp.
    set (dis := or_if_none _ _). unfold raise_if at 1. rewrite !bind_ret_l.
    replace (match dis with Some _ | _ => false end) with false by (destruct dis; reflexivity).
    unfold raise_if at 1. rewrite bind_ret_l. unfold process_dim. rewrite Ha. unfold raise_if. destruct (d <? 1); eexists; eexists; reflexivity.
  - intros d q -> Hd Hp Ha. rewrite Hd. apply contains_spec in Hp. assert (Ha2 : contains "[%s]" (parsed_name (PaPer q)) = false).
    { apply Bool.not_true_is_false. intros H. apply Ha. now apply contains_spec. }
    unfold extract_dimension. rewrite Hp.
    set (dis := or_if_none _ _). unfold raise_if at 1. rewrite !bind_ret_l.
    replace (match dis with Some _ | _ => false end) with false by (destruct dis; reflexivity).
    unfold raise_if at 1. rewrite bind_ret_l. unfold process_dim. rewrite Ha2, Hp. unfold raise_if. destruct (d <? 1); eexists; eexists; reflexivity.
  - intros ws e H. apply extract_dimension_err in H as [H|(s & Hs & H)]; [now left|]. right. exists s. split; [exact Hs|]. tauto.
Qed.

(** false as stated: these dimIndex texts raise raw ValueError / TypeError *)
Theorem C08_malformed_refuted :
  exists p1 p2 p3, forall bv, bv = None ->
    (exists s, node_dimension p1 bv = ([], Err (E ValueError s))) /\ (exists s, node_dimension p2 bv = ([], Err (E ValueError s))) /\
    (exists s, node_dimension p3 bv = ([], Err (E TypeError s))).
Proof.
  set (mk := fun t => PaFld (mk_sfield (mk_sdim (Some 4) (Some 1) (Some t) None None) "F%s" None (Some 0) (Some 1) None None None None None None None [] None)).
  exists (mk "0-3-5"%string), (mk "0-3a"%string), (mk "A-BC"%string). intros bv ->. repeat split; eexists; vm_compute; reflexivity.
Qed.

(** ** Non-vacuity *)
Definition sample_reg : parsed :=
  PaRc (SReg (mk_sreg (mk_sdim (Some 3) (Some 4) (Some "A,B, C") None None) (mk_oprops None None None None None) "R%s" None None None None 16 None None None None [] None)).
Example C05_nonvacuous :
  same_kind sample_reg None /\
  match node_dimension sample_reg None with
  | (_, Ok (true, names, displays)) =>
      match create_elements 0 names displays sample_reg None with
      | (_, Ok vs) => map (fun v => (processed_name v, match v with PrRc (IReg r) => rb_offset (ir_b r) | _ => 0 end)) vs =
                        [("RA", 16); ("RB", 20); ("RC", 24)]%string
      | _ => False end
  | _ => False end.
Proof. split; [exact I|]. vm_compute. reflexivity. Qed.
Example C07_nonvacuous : Index 3 (Some "7-9"%string) ["7"; "8"; "9"]%string /\ process_dim_index 3 (Some "7-9"%string) = ([], Ok ["7"; "8"; "9"]%string)
  /\ Index 3 (Some "B-D"%string) ["B"; "C"; "D"]%string /\ Index 2 (Some "x, y"%string) ["x"; "y"]%string.
Proof.
  repeat split.
  - apply (Ix_range 3 "7" "9"); [split; [discriminate|reflexivity]|split; [discriminate|reflexivity]|vm_compute; discriminate].
  - apply (Ix_letters 3 "B" "D"); reflexivity.
  - apply Ix_words. apply (WL_cons "x" " " "y" ["y"%string]); [split; [discriminate|reflexivity]|reflexivity|].
    apply WL_last. split; [discriminate|reflexivity].
Qed.

Print Assumptions C05_dim_instances.
Print Assumptions C05_no_dim_single.
Print Assumptions C06_names_differ.
Print Assumptions C07_dim_index.
Print Assumptions C07_descending.
Print Assumptions C08_malformed_rejected_partial.
Print Assumptions C08_malformed_refuted.
