(** * SchemaRead: valid documents are read (for C57, C58) *)
From Verif Require Import Base PyStr PyInt Types ParseModel SpecText SpecParse SpecSchema SpecConform TextFacts PropsText PropsParse SerializeModel
  SchemaFacts SchemaText.

(** ** Single components *)
Lemma simple_child r ty c : Valid r ty c -> complex_type r ty = None -> exists n t, c = Elem n [] t [] /\ InSimple r ty (content t).
Proof. intros H Hc. inversion H; subst; [eauto|congruence]. Qed.

Definition TypedKids (r : scope) (n ty : string) (e : xml) : Prop := forall c, In c (xml_kids e) -> Named n c -> Valid r ty c.

Lemma last_opt_in {A} (l : list A) x : last_opt l = Some x -> In x l.
Proof.
  induction l as [|a l IH]; [discriminate|]. destruct l as [|b l]; [intros H; injection H as ->; now left|]. intros H. right. now apply IH.
Qed.
Lemma raw_typed r ty n e : TypedKids r n ty e -> complex_type r ty = None -> nullable (language r ty) = false ->
  exists o, Raw n e o /\ match o with Some s => InSimple r ty s /\ 1 <= cnt n e | None => cnt n e = 0 end.
Proof.
  intros Hk Hc Hn.
  assert (Ht : forall c, In c (xml_kids e) -> Named n c -> exists s, xml_text c = Some s /\ InSimple r ty s).
  { intros c Hi Hnm. destruct (simple_child r ty c (Hk c Hi Hnm) Hc) as (m & t & -> & Hs). cbn.
    pose proof (simple_nonempty r ty _ Hs Hn) as Hne. destruct t as [s|]; cbn in *; [eauto|contradiction]. }
  assert (Hin : forall c, In c (filter (has_tag n) (xml_kids e)) -> exists s, xml_text c = Some s /\ InSimple r ty s).
  { intros c Hi. apply filter_In in Hi as [Hi Hb]. apply has_tag_iff in Hb. auto. }
  assert (Hrep : forall es, AllNamed n (xml_kids e) es -> (2 <= length es)%nat -> forall c, In c es -> xml_text c <> None).
  { intros es Ha _ c Hi. apply all_named_iff in Ha. subst es. destruct (Hin c Hi) as (s & -> & _). discriminate. }
  rewrite cnt_length. destruct (last_opt (filter (has_tag n) (xml_kids e))) as [c|] eqn:El.
  - pose proof (last_opt_in _ _ El) as Hi. destruct (Hin c Hi) as (s & Ht' & Hs). exists (Some s). split.
    + split; [exact Hrep|]. right. exists c. split; [now apply last_named_iff|exact Ht'].
    + split; [exact Hs|]. destruct (filter (has_tag n) (xml_kids e)); [contradiction|]. cbn [length]. lia.
  - apply last_opt_none in El. exists None. split.
    + split; [exact Hrep|]. left. split; [now apply none_named_iff|reflexivity].
    + now rewrite El.
Qed.
Lemma raw_single r ty n e : TypedKids r n ty e -> complex_type r ty = None -> cnt n e <= 1 ->
  exists o, Raw n e o /\ match o with Some s => InSimple r ty s | None => True end.
Proof.
  intros Hk Hc Hn. rewrite cnt_length in Hn.
  assert (Hrep : forall es, AllNamed n (xml_kids e) es -> (2 <= length es)%nat -> forall c, In c es -> xml_text c <> None).
  { intros es Ha Hl c Hi. apply all_named_iff in Ha. subst es. lia. }
  destruct (last_opt (filter (has_tag n) (xml_kids e))) as [c|] eqn:El.
  - pose proof (last_opt_in _ _ El) as Hi. apply filter_In in Hi as [Hi Hb]. apply has_tag_iff in Hb.
    destruct (simple_child r ty c (Hk c Hi Hb) Hc) as (m & t & -> & Hs). exists t. split.
    + split; [exact Hrep|]. right. eexists. split; [apply last_named_iff; exact El|reflexivity].
    + destruct t; [exact Hs|exact Logic.I].
  - apply last_opt_none in El. exists None. split; [|exact Logic.I]. split; [exact Hrep|]. left. split; [now apply none_named_iff|reflexivity].
Qed.

Definition Seen {A} (n : string) (e : xml) (o : option A) : Prop := match o with Some _ => 1 <= cnt n e | None => cnt n e = 0 end.
Definition OC {A} (C : A -> Prop) (o : option A) : Prop := match o with Some v => C v | None => True end.

Lemma reads_ex {A} r ty n e (R : string -> A -> Prop) C : Kind r ty R C -> TypedKids r n ty e -> complex_type r ty = None ->
  nullable (language r ty) = false -> exists o, Reads R n e o /\ OC C o /\ Seen n e o.
Proof.
  intros HK Hk Hc Hn. destruct (raw_typed r ty n e Hk Hc Hn) as ([s|] & Hr & Ho).
  - destruct Ho as [Hs Hc1]. destruct (HK s Hs) as (t & v & Ht & Hv & HC). exists (Some v). split; [|split; [exact HC|exact Hc1]].
    exists (Some t). split; [|exact Hv]. exists (Some s). split; [exact Hr|exact Ht].
  - exists None. split; [|split; [exact Logic.I|exact Ho]]. exists None. split; [|exact Logic.I]. exists None. split; [exact Hr|exact Logic.I].
Qed.
Lemma must_ex {A} r ty n e (R : string -> A -> Prop) C : Kind r ty R C -> TypedKids r n ty e -> complex_type r ty = None ->
  nullable (language r ty) = false -> 1 <= cnt n e -> exists v, Must R n e v /\ C v.
Proof.
  intros HK Hk Hc Hn H1. destruct (reads_ex r ty n e R C HK Hk Hc Hn) as ([v|] & Hr & HC & Hs); cbn in *; [|lia].
  exists v. split; [|exact HC]. destruct Hr as (t & Ht & Hv). destruct t as [t|]; [|contradiction]. exists t. auto.
Qed.
Lemma text_ex r ty n e C : Kind r ty Is C -> TypedKids r n ty e -> complex_type r ty = None ->
  nullable (language r ty) = false -> exists o, Text n e o /\ OC C o /\ Seen n e o.
Proof.
  intros HK Hk Hc Hn. destruct (reads_ex r ty n e Is C HK Hk Hc Hn) as (o & (t & Ht & Hv) & HC & Hs). exists o. split; [|auto].
  destruct t as [t|], o as [o|]; cbn in Hv; try contradiction; [unfold Is in Hv; now subst|exact Ht].
Qed.
Lemma rawtext_ex r n e : r <> Full -> TypedKids r n "stringType" e ->
  exists o, Raw n e o /\ OC (Keeps r "stringType") o /\ Seen n e o.
Proof.
  intros Hr Hk. destruct (raw_typed r "stringType" n e Hk) as (o & Ho & Hs); [not_full; reflexivity|not_full; reflexivity|].
  exists o. split; [exact Ho|]. destruct o as [s|]; cbn; [|auto]. destruct Hs as [Hs H1]. split; [|exact H1]. intros ->. exact Hs.
Qed.
Lemma access_ex r e : r <> Full -> TypedKids r "access" "accessType" e -> exists o, Access e o.
Proof.
  intros Hr Hk. destruct (reads_ex r "accessType" "access" e AccessIs (fun _ => True)) as (o & (t & Ht & Ho) & _).
  - now apply kind_access.
  - exact Hk.
  - not_full; reflexivity.
  - not_full; reflexivity.
  - exists o. exists t. split; [exact Ht|]. destruct t as [t|], o as [o|]; cbn in Ho; try contradiction; auto.
Qed.
Lemma child_ex {A} r ty n e (R : xml -> A -> Prop) C : TypedKids r n ty e -> (forall c, Valid r ty c -> exists v, R c v /\ C v) ->
  exists o, Child n R e o /\ OC C o /\ Seen n e o.
Proof.
  intros Hk HR. destruct (hd_error (filter (has_tag n) (xml_kids e))) as [c|] eqn:Eh.
  - assert (Hi : In c (filter (has_tag n) (xml_kids e))) by (destruct (filter (has_tag n) (xml_kids e)); [discriminate|injection Eh as ->; now left]).
    pose proof Hi as Hi'. apply filter_In in Hi as [Hi Hb]. apply has_tag_iff in Hb. destruct (HR c (Hk c Hi Hb)) as (v & Hv & HC).
    exists (Some v). split; [|split; [exact HC|]].
    + right. exists c, v. split; [now apply first_named_iff|auto].
    + cbn. rewrite cnt_length. destruct (filter (has_tag n) (xml_kids e)); [contradiction|]. cbn [length]. lia.
  - assert (Hf : filter (has_tag n) (xml_kids e) = []) by (destruct (filter (has_tag n) (xml_kids e)); [reflexivity|discriminate]).
    exists None. split; [|split; [exact Logic.I|]].
    + left. split; [now apply none_named_iff|reflexivity].
    + cbn. rewrite cnt_length, Hf. reflexivity.
Qed.
Lemma forall2_ex {A B} (R : A -> B -> Prop) C l : (forall a, In a l -> exists b, R a b /\ C b) -> exists l', Forall2 R l l' /\ Forall C l' .
Proof.
  induction l as [|a l IH]; intros H; [exists []; auto|]. destruct (H a (or_introl eq_refl)) as (b & Hb & Hc).
  destruct IH as (l' & H1 & H2); [intros x Hx; apply H; now right|]. exists (b :: l'). auto.
Qed.
Lemma forall2_len {A B} (R : A -> B -> Prop) l l' : Forall2 R l l' -> length l = length l'.
Proof. induction 1; cbn; auto. Qed.
Lemma children_ex {A} r ty n e (R : xml -> A -> Prop) C : TypedKids r n ty e -> (forall c, Valid r ty c -> exists v, R c v /\ C v) ->
  exists l, Children n R e l /\ Forall C l /\ Z.of_nat (length l) = cnt n e.
Proof.
  intros Hk HR. destruct (forall2_ex R C (filter (has_tag n) (xml_kids e))) as (l & H1 & H2).
  - intros c Hi. apply filter_In in Hi as [Hi Hb]. apply has_tag_iff in Hb. auto.
  - exists l. split; [|split; [exact H2|]].
    + exists (filter (has_tag n) (xml_kids e)). split; [now apply all_named_iff|exact H1].
    + rewrite cnt_length. now rewrite (forall2_len _ _ _ H1).
Qed.

(** attributes *)
Definition attr_type (decl : list (string * string * bool)) (n ty : string) : bool :=
  forallb (fun d => negb (String.eqb (fst (fst d)) n) || String.eqb (snd (fst d)) ty) decl.
Lemma find_split {A} (f : A -> bool) l x : find f l = Some x -> exists l1 l2, l = l1 ++ x :: l2 /\ f x = true /\ (forall y, In y l1 -> f y = false).
Proof.
  induction l as [|a l IH]; [discriminate|]. cbn. destruct (f a) eqn:E.
  - intros H; injection H as ->. exists [], l. split; [reflexivity|]. split; [exact E|intros y []].
  - intros H. destruct (IH H) as (l1 & l2 & -> & H1 & H2). exists (a :: l1), l2. split; [reflexivity|]. split; [exact H1|].
    intros y [<-|Hy]; auto.
Qed.
Lemma attr_ex {A} r decl e n ty (R : string -> A -> Prop) C : AttrsValid r decl (xml_attrs e) -> attr_type decl n ty = true -> Kind r ty R C ->
  exists o, AttrReads R n e o /\ OC C o /\ (o = None -> ~ In n (map fst (xml_attrs e))).
Proof.
  intros (_ & Hv & _) Ht HK. destruct (find (fun p => String.eqb (fst p) n) (xml_attrs e)) as [[m v]|] eqn:Ef.
  - apply find_split in Ef as (l1 & l2 & Hs & Hm & Hf). cbn in Hm. apply String.eqb_eq in Hm as ->.
    assert (Hi : In (n, v) (xml_attrs e)) by (rewrite Hs; apply in_app_iff; right; now left).
    destruct (Hv n v Hi) as (ty' & req & Hd & HS). unfold attr_type in Ht. rewrite forallb_forall in Ht. specialize (Ht _ Hd). cbn in Ht.
    rewrite String.eqb_refl in Ht. cbn in Ht. apply String.eqb_eq in Ht as ->. destruct (HK v HS) as (t & a & Hst & Ha & HC).
    exists (Some a). split; [|split; [exact HC|discriminate]]. exists (Some t). split; [|exact Ha]. right. exists v, t, l1, l2.
    split; [exact Hs|]. split; [|auto]. intros Hin. apply in_map_iff in Hin as ([x y] & <- & Hin). specialize (Hf _ Hin). cbn in Hf.
    now rewrite String.eqb_refl in Hf.
  - pose proof (find_none _ _ Ef) as Hf.
    assert (Hno : ~ In n (map fst (xml_attrs e))).
    { intros Hin. apply in_map_iff in Hin as ([x y] & <- & Hin). specialize (Hf _ Hin). cbn in Hf. now rewrite String.eqb_refl in Hf. }
    exists None. split; [|split; [exact Logic.I|auto]]. exists None. split; [|exact Logic.I]. left. split; [|reflexivity].
    intros v Hi. apply Hno. apply in_map_iff. exists (n, v). auto.
Qed.
Lemma attr_text_ex r decl e n ty C : AttrsValid r decl (xml_attrs e) -> attr_type decl n ty = true -> Kind r ty Is C ->
  exists o, Attr n e o /\ OC C o /\ (o = None -> ~ In n (map fst (xml_attrs e))).
Proof.
  intros H1 H2 H3. destruct (attr_ex r decl e n ty Is C H1 H2 H3) as (o & (t & Ht & Ho) & HC & Hn). exists o. split; [|auto].
  destruct t as [t|], o as [o|]; cbn in Ho; try contradiction; [unfold Is in Ho; now subst|exact Ht].
Qed.
Lemma kind_xstring r : r <> Full -> Kind r "xs:string" Is (fun _ => True).
Proof. intros Hr s Hs. exists (strip s), (strip s). split; [now apply stripped_iff|]. split; [reflexivity|exact Logic.I]. Qed.

(** ** Elements with children *)
Definition body (r : scope) (ty : string) : particle := match complex_type r ty with Some ct => ct_content ct | None => AnyElements end.
Definition heads (r : scope) (ty : string) : list (string * string * bool) := match complex_type r ty with Some ct => ct_attrs ct | None => [] end.
Definition Body (r : scope) (ty : string) (e : xml) : Prop :=
  AttrsValid r (heads r ty) (xml_attrs e) /\ Children_match r (body r ty) (filter is_element (xml_kids e)).
Lemma body_of r ty e : Valid r ty e -> is_some_b (simple_type r ty) = false -> Body r ty e.
Proof.
  intros H Hs. unfold Body, heads, body. inversion H as [ty' n t Hi|ty' ct n a t ks Hc Ha Ht Hm]; subst.
  - unfold InSimple in Hi. destruct (simple_type r ty); [discriminate|contradiction].
  - rewrite Hc. auto.
Qed.
Definition kid (r : scope) (ty n tn : string) : bool :=
  negb (has_any (body r ty)) && one_type (body r ty) n tn.
Definition leafy (r : scope) (tn : string) : bool := negb (is_some_b (complex_type r tn)) && negb (nullable (language r tn)).
Definition atleast (r : scope) (ty n : string) : bool := match lo (ind n) (body r ty) with Some x => 1 <=? x | None => false end.
Definition atmost (r : scope) (ty n : string) (k : Z) : bool := match hi (ind n) (body r ty) with Some x => x <=? k | None => false end.
Lemma kid_typed r ty n tn e : Body r ty e -> kid r ty n tn = true -> TypedKids r n tn e.
Proof.
  intros [_ Hm] Hk c Hi Hn. unfold kid in Hk. apply andb_true_iff in Hk as [H1 H2]. apply negb_true_iff in H1. eapply child_type; eauto.
Qed.
Lemma leafy_inv r tn : leafy r tn = true -> complex_type r tn = None /\ nullable (language r tn) = false.
Proof. unfold leafy. destruct (complex_type r tn); cbn; [discriminate|]. intros H. apply negb_true_iff in H. auto. Qed.
Lemma least r ty n e : Body r ty e -> atleast r ty n = true -> 1 <= cnt n e.
Proof.
  intros [_ Hm] H. unfold atleast in H. destruct (weigh_bounds r (ind n) _ _ Hm) as [H1 _]. destruct (lo (ind n) (body r ty)); [|discriminate].
  cbn in H1. fold (cnt n e) in H1. lia.
Qed.
Lemma most r ty n k e : Body r ty e -> atmost r ty n k = true -> cnt n e <= k.
Proof.
  intros [_ Hm] H. unfold atmost in H. destruct (weigh_bounds r (ind n) _ _ Hm) as [_ H1]. destruct (hi (ind n) (body r ty)); [|discriminate].
  cbn in H1. fold (cnt n e) in H1. lia.
Qed.
(** [a] is not seen more often than [b] *)
Definition within (r : scope) (ty a b : string) : bool :=
  match hi (fun m => ind a m - ind b m) (body r ty) with Some x => x <=? 0 | None => false end.
Lemma rarer r ty a b e : Body r ty e -> within r ty a b = true -> cnt a e <= cnt b e.
Proof.
  intros [_ Hm] H. unfold within in H. destruct (weigh_bounds r (fun m => ind a m - ind b m) _ _ Hm) as [_ H1].
  rewrite weigh_sub in H1. fold (cnt a e) (cnt b e) in H1. destruct (hi _ (body r ty)); [|discriminate]. cbn in H1. lia.
Qed.
Definition exactly3 (r : scope) (ty a b c : string) : bool :=
  match lo (fun m => ind a m + ind b m + ind c m) (body r ty), hi (fun m => ind a m + ind b m + ind c m) (body r ty) with
  | Some x, Some y => (x =? 1) && (y =? 1) | _, _ => false end.
Lemma three r ty a b c e : Body r ty e -> exactly3 r ty a b c = true -> cnt a e + cnt b e + cnt c e = 1.
Proof.
  intros [_ Hm] H. unfold exactly3 in H. destruct (weigh_bounds r (fun m => ind a m + ind b m + ind c m) _ _ Hm) as [H1 H2].
  rewrite !weigh_add in H1, H2. fold (cnt a e) (cnt b e) (cnt c e) in H1, H2.
  destruct (lo _ (body r ty)) as [x|]; [|discriminate]. destruct (hi _ (body r ty)) as [y|]; [|discriminate]. cbn in H1, H2.
  apply andb_true_iff in H as [Hx Hy]. lia.
Qed.
Definition exactly2 (r : scope) (ty a b : string) : bool :=
  match lo (fun m => ind a m + ind b m) (body r ty), hi (fun m => ind a m + ind b m) (body r ty) with
  | Some x, Some y => (x =? 1) && (y =? 1) | _, _ => false end.
Lemma two r ty a b e : Body r ty e -> exactly2 r ty a b = true -> cnt a e + cnt b e = 1.
Proof.
  intros [_ Hm] H. unfold exactly2 in H. destruct (weigh_bounds r (fun m => ind a m + ind b m) _ _ Hm) as [H1 H2].
  rewrite !weigh_add in H1, H2. fold (cnt a e) (cnt b e) in H1, H2.
  destruct (lo _ (body r ty)) as [x|]; [|discriminate]. destruct (hi _ (body r ty)) as [y|]; [|discriminate]. cbn in H1, H2.
  apply andb_true_iff in H as [Hx Hy]. lia.
Qed.
Definition atmost2 (r : scope) (ty a b : string) : bool :=
  match hi (fun m => ind a m + ind b m) (body r ty) with Some x => x <=? 1 | _ => false end.
Lemma one_of r ty a b e : Body r ty e -> atmost2 r ty a b = true -> cnt a e + cnt b e <= 1.
Proof.
  intros [_ Hm] H. unfold atmost2 in H. destruct (weigh_bounds r (fun m => ind a m + ind b m) _ _ Hm) as [_ H2].
  rewrite !weigh_add in H2. fold (cnt a e) (cnt b e) in H2.
  destruct (hi _ (body r ty)) as [y|]; [|discriminate]. cbn in H2. lia.
Qed.
Lemma cnt_nonneg n e : 0 <= cnt n e.
Proof. rewrite cnt_length. lia. Qed.

Section Parts.
Variable r : scope.
Hypothesis Hr : r <> Full.
Variables (ty : string) (e : xml).
Hypothesis HB : Body r ty e.

Lemma b_reads {A} n tn (R : string -> A -> Prop) C : Kind r tn R C -> kid r ty n tn = true -> leafy r tn = true ->
  exists o, Reads R n e o /\ OC C o /\ Seen n e o.
Proof. intros HK H1 H2. apply leafy_inv in H2 as [H2 H3]. eapply reads_ex; eauto. now apply kid_typed with ty. Qed.
Lemma b_must {A} n tn (R : string -> A -> Prop) C : Kind r tn R C -> kid r ty n tn = true -> leafy r tn = true -> atleast r ty n = true ->
  exists v, Must R n e v /\ C v.
Proof. intros HK H1 H2 H3. apply leafy_inv in H2 as [H2 H4]. eapply must_ex; eauto. now apply kid_typed with ty. now apply least with r ty. Qed.
Lemma b_text n tn C : Kind r tn Is C -> kid r ty n tn = true -> leafy r tn = true ->
  exists o, Text n e o /\ OC C o /\ Seen n e o.
Proof. intros HK H1 H2. apply leafy_inv in H2 as [H2 H3]. eapply text_ex; eauto. now apply kid_typed with ty. Qed.
Lemma b_raw n : kid r ty n "stringType" = true -> exists o, Raw n e o /\ OC (Keeps r "stringType") o /\ Seen n e o.
Proof. intros H1. apply rawtext_ex; [exact Hr|now apply kid_typed with ty]. Qed.
Lemma b_access : kid r ty "access" "accessType" = true -> exists o, Access e o.
Proof. intros H1. eapply access_ex; [exact Hr|now apply kid_typed with ty]. Qed.
Lemma b_child {A} n tn (R : xml -> A -> Prop) C : (forall c, Valid r tn c -> exists v, R c v /\ C v) -> kid r ty n tn = true ->
  exists o, Child n R e o /\ OC C o /\ Seen n e o.
Proof. intros HR H1. eapply child_ex; eauto. now apply kid_typed with ty. Qed.
Lemma b_children {A} n tn (R : xml -> A -> Prop) C : (forall c, Valid r tn c -> exists v, R c v /\ C v) -> kid r ty n tn = true ->
  exists l, Children n R e l /\ Forall C l /\ Z.of_nat (length l) = cnt n e.
Proof. intros HR H1. eapply children_ex; eauto. now apply kid_typed with ty. Qed.
Lemma b_attr {A} n tn (R : string -> A -> Prop) C : Kind r tn R C -> attr_type (heads r ty) n tn = true ->
  exists o, AttrReads R n e o /\ OC C o /\ (o = None -> ~ In n (map fst (xml_attrs e))).
Proof. destruct HB as [Ha _]. intros. eapply attr_ex; eauto. Qed.
Lemma b_attr_text n tn C : Kind r tn Is C -> attr_type (heads r ty) n tn = true ->
  exists o, Attr n e o /\ OC C o /\ (o = None -> ~ In n (map fst (xml_attrs e))).
Proof. destruct HB as [Ha _]. intros. eapply attr_text_ex; eauto. Qed.
End Parts.

Ltac comp := match goal with
  | r : scope, H : ?r <> Full |- _ => destruct r; [contradiction| |]; vm_compute; reflexivity
  | _ => vm_compute; reflexivity end.
Definition Then {A} (r : scope) (C : A -> Prop) (v : A) : Prop := r = Rewritable -> C v.
Lemma kind_ident r : r <> Full -> Kind r "identifierType" Is (Keeps r "identifierType").
Proof. intros Hr. apply kind_is; [exact Hr|comp..]. Qed.
Lemma kind_dimable r : r <> Full -> Kind r "dimableIdentifierType" Is (Keeps r "dimableIdentifierType").
Proof. intros Hr. apply kind_is; [exact Hr|comp..]. Qed.
Lemma kind_ref r : r <> Full -> Kind r "referenceIdentifierType" Is (Keeps r "referenceIdentifierType").
Proof. intros Hr. apply kind_is; [exact Hr|comp..]. Qed.
Lemma kind_dimindex r : r <> Full -> Kind r "dimIndexType" Is (Keeps r "dimIndexType").
Proof. intros Hr. apply kind_is; [exact Hr|comp..]. Qed.
Lemma kind_evd r : r <> Full -> Kind r "enumeratedValueDataType" Is (Keeps r "enumeratedValueDataType").
Proof. intros Hr. apply kind_is; [exact Hr|comp..]. Qed.
Lemma kind_bitrange r : r <> Full -> Kind r "bitRangeType" Is (Keeps r "bitRangeType").
Proof. intros Hr. apply kind_is; [exact Hr|comp..]. Qed.
Lemma kind_rev r : r <> Full -> Kind r "revisionType" Is (Keeps r "revisionType").
Proof. intros Hr. apply kind_is; [exact Hr|comp..]. Qed.
Lemma kind_decimal r : r <> Full -> Kind r "xs:decimal" Is (Keeps r "xs:decimal").
Proof. intros Hr. apply kind_is; [exact Hr|comp..]. Qed.
Lemma kind_name r : r <> Full -> Kind r "xs:Name" Is (Keeps r "xs:Name").
Proof. intros Hr. apply kind_is; [exact Hr|comp..]. Qed.

Tactic Notation "rd" constr(n) uconstr(K) ident(x) :=
  let H := fresh "H" x in let C := fresh "C" x in let S := fresh "S" x in
  match goal with Hr : ?r <> Full, HB : Body ?r ?ty ?e |- _ =>
    destruct (b_reads r ty e HB n _ _ _ (K r Hr)) as (x & H & C & S); [comp|comp|] end.
Tactic Notation "mu" constr(n) uconstr(K) ident(x) :=
  let H := fresh "H" x in let C := fresh "C" x in
  match goal with Hr : ?r <> Full, HB : Body ?r ?ty ?e |- _ =>
    destruct (b_must r ty e HB n _ _ _ (K r Hr)) as (x & H & C); [comp|comp|comp|] end.
Tactic Notation "tx" constr(n) uconstr(K) ident(x) :=
  let H := fresh "H" x in let C := fresh "C" x in let S := fresh "S" x in
  match goal with Hr : ?r <> Full, HB : Body ?r ?ty ?e |- _ =>
    destruct (b_text r ty e HB n _ _ (K r Hr)) as (x & H & C & S); [comp|comp|] end.
Tactic Notation "rw" constr(n) ident(x) :=
  let H := fresh "H" x in let C := fresh "C" x in let S := fresh "S" x in
  match goal with Hr : ?r <> Full, HB : Body ?r ?ty ?e |- _ =>
    destruct (b_raw r Hr ty e HB n) as (x & H & C & S); [comp|] end.
Tactic Notation "ac" ident(x) :=
  let H := fresh "H" x in
  match goal with Hr : ?r <> Full, HB : Body ?r ?ty ?e |- _ =>
    destruct (b_access r Hr ty e HB) as (x & H); [comp|] end.
Tactic Notation "ch" constr(n) uconstr(K) ident(x) :=
  let H := fresh "H" x in let C := fresh "C" x in let S := fresh "S" x in
  match goal with Hr : ?r <> Full, HB : Body ?r ?ty ?e |- _ =>
    destruct (b_child r ty e HB n _ _ _ (K r Hr)) as (x & H & C & S); [comp|] end.
Tactic Notation "cs" constr(n) uconstr(K) ident(x) :=
  let H := fresh "H" x in let C := fresh "C" x in let S := fresh "S" x in
  match goal with Hr : ?r <> Full, HB : Body ?r ?ty ?e |- _ =>
    destruct (b_children r ty e HB n _ _ _ (K r Hr)) as (x & H & C & S); [comp|] end.
Tactic Notation "at" constr(n) uconstr(K) ident(x) :=
  let H := fresh "H" x in let C := fresh "C" x in let S := fresh "S" x in
  match goal with Hr : ?r <> Full, HB : Body ?r ?ty ?e |- _ =>
    destruct (b_attr r ty e HB n _ _ _ (K r Hr)) as (x & H & C & S); [comp|] end.
Tactic Notation "ax" constr(n) uconstr(K) ident(x) :=
  let H := fresh "H" x in let C := fresh "C" x in let S := fresh "S" x in
  match goal with Hr : ?r <> Full, HB : Body ?r ?ty ?e |- _ =>
    destruct (b_attr_text r ty e HB n _ _ (K r Hr)) as (x & H & C & S); [comp|] end.
Tactic Notation "opening" :=
  match goal with |- forall q, q <> Full -> forall x, Valid q ?ty x -> _ =>
    intros r Hr e H; assert (HB : Body r ty e) by (apply body_of; [exact H|comp]); clear H end.

Lemma oc_txt r ty o : OC (Keeps r ty) o -> r = Rewritable -> otxt ty o.
Proof. intros H Hr s ->. exact (H Hr). Qed.
Lemma oc_nonneg o : OC (fun v => 0 <= v) o -> nonneg o.
Proof. intros H v ->. exact H. Qed.
Lemma oc_any o : OC (fun v => v <> ANY) o -> noany o.
Proof. destruct o; cbn; unfold noany; congruence. Qed.
Lemma oc_holds {A} r (C : A -> Prop) o : OC (Then r C) o -> r = Rewritable -> holds C o.
Proof. intros H Hr x ->. exact (H Hr). Qed.
Lemma then_forall {A} r (C : A -> Prop) l : Forall (Then r C) l -> r = Rewritable -> Forall C l.
Proof. intros H Hr. eapply Forall_impl; [|exact H]. intros a Ha. exact (Ha Hr). Qed.
Lemma seen_given {A} n e (o : option A) : Seen n e o -> given o <-> 1 <= cnt n e.
Proof. unfold Seen, given. destruct o; intros H; split; intros H'; try congruence; lia. Qed.
Lemma seen_none {A} n e (o : option A) : Seen n e o -> o = None <-> cnt n e = 0.
Proof. unfold Seen. destruct o; intros H; split; intros H'; try congruence; lia. Qed.

Lemma ev_ex : forall r, r <> Full -> forall e, Valid r "enumeratedValueType" e -> exists v, reads_ev e v /\ Then r conform_ev v.
Proof.
  opening. mu "name" kind_ident nm. rw "description" ds. tx "value" kind_evd vl. rd "isDefault" kind_bool df.
  exists (mk_sev nm ds vl df). split; [repeat (split; [eassumption|]); assumption|]. intros ->.
  pose proof (two Rewritable _ "value" "isDefault" e HB eq_refl).
  split; [now apply Cnm|]. split; [eapply oc_txt; eauto|]. split; [eapply oc_txt; eauto|]. cbn [sev_value sev_default].
  rewrite (seen_given _ _ _ Svl), (seen_none _ _ _ Sdf). pose proof (cnt_nonneg "value" e). pose proof (cnt_nonneg "isDefault" e).
  lia.
Qed.
Lemma dai_ex : forall r, r <> Full -> forall e, Valid r "dimArrayIndexType" e -> exists v, reads_dai e v /\ Then r conform_dai v.
Proof.
  opening. tx "headerEnumName" kind_ident h. cs "enumeratedValue" ev_ex l. exists (mk_sdai h l). split; [split; assumption|]. intros ->.
  pose proof (least Rewritable _ "enumeratedValue" e HB eq_refl).
  split; [eapply oc_txt; eauto|]. cbn. split; [intros ->; cbn in Sl; lia|]. now apply (then_forall Rewritable).
Qed.
Definition dimmed (r : scope) (ty : string) : bool :=
  kid r ty "dim" "scaledNonNegativeInteger" && kid r ty "dimIncrement" "scaledNonNegativeInteger" && kid r ty "dimIndex" "dimIndexType" &&
  kid r ty "dimName" "identifierType" && kid r ty "dimArrayIndex" "dimArrayIndexType" &&
  within r ty "dim" "dimIncrement" && within r ty "dimIncrement" "dim" && within r ty "dimIndex" "dim" && within r ty "dimName" "dim" &&
  within r ty "dimArrayIndex" "dim".
Lemma dim_ex r ty e : r <> Full -> Body r ty e -> dimmed r ty = true -> exists d, reads_dim e d /\ Then r conform_dim d.
Proof.
  intros Hr HB H. unfold dimmed in H. rewrite !andb_true_iff in H.
  destruct H as (((((((((H1 & H2) & H3) & H4) & H5) & H6) & H7) & H8) & H9) & H10).
  destruct (b_reads r ty e HB "dim" _ _ _ (kind_int r Hr) H1) as (d & Hd & Cd & Sd); [comp|].
  destruct (b_reads r ty e HB "dimIncrement" _ _ _ (kind_int r Hr) H2) as (i & Hi & Ci & Si); [comp|].
  destruct (b_text r ty e HB "dimIndex" _ _ (kind_dimindex r Hr) H3) as (x & Hx & Cx & Sx); [comp|].
  destruct (b_text r ty e HB "dimName" _ _ (kind_ident r Hr) H4) as (n & Hn & Cn & Sn); [comp|].
  destruct (b_child r ty e HB "dimArrayIndex" _ _ _ (dai_ex r Hr) H5) as (a & Ha & Ca & Sa).
  exists (mk_sdim d i x n a). split; [repeat (split; [eassumption|]); assumption|]. intros ->.
  apply (rarer _ _ _ _ _ HB) in H6, H7, H8, H9, H10.
  unfold conform_dim. cbn [sd_dim sd_inc sd_index sd_name sd_dai].
  rewrite (seen_given _ _ _ Sd), (seen_given _ _ _ Si), (seen_given _ _ _ Sx), (seen_given _ _ _ Sn), (seen_given _ _ _ Sa).
  split; [lia|]. split; [now apply oc_nonneg|]. split; [now apply oc_nonneg|]. split; [eapply oc_txt; eauto|].
  split; [eapply oc_txt; eauto|]. split; [eapply oc_holds; eauto|]. lia.
Qed.
Definition propped (r : scope) (ty : string) : bool :=
  kid r ty "size" "scaledNonNegativeInteger" && kid r ty "access" "accessType" && kid r ty "protection" "protectionStringType" &&
  kid r ty "resetValue" "scaledNonNegativeInteger" && kid r ty "resetMask" "scaledNonNegativeInteger".
Lemma props_ex r ty e : r <> Full -> Body r ty e -> propped r ty = true -> exists d, reads_props e d /\ conform_props d.
Proof.
  intros Hr HB H. unfold propped in H. rewrite !andb_true_iff in H. destruct H as ((((H1 & H2) & H3) & H4) & H5).
  destruct (b_reads r ty e HB "size" _ _ _ (kind_int r Hr) H1) as (d & Hd & Cd & Sd); [comp|].
  destruct (b_access r Hr ty e HB H2) as (a & Ha).
  destruct (b_reads r ty e HB "protection" _ _ _ (kind_prot r Hr) H3) as (p & Hp & Cp & Sp); [comp|].
  destruct (b_reads r ty e HB "resetValue" _ _ _ (kind_int r Hr) H4) as (v & Hv & Cv & Sv); [comp|].
  destruct (b_reads r ty e HB "resetMask" _ _ _ (kind_int r Hr) H5) as (m & Hm & Cm & Sm); [comp|].
  exists (mk_oprops d a p v m). split; [repeat (split; [eassumption|]); assumption|].
  split; [now apply oc_nonneg|]. split; [now apply oc_any|]. split; now apply oc_nonneg.
Qed.
Lemma range_ex : forall r, r <> Full -> forall e, Valid r "range" e -> exists v, reads_range e v /\ (0 <= fst v /\ 0 <= snd v).
Proof. opening. mu "minimum" kind_int a. mu "maximum" kind_int b. exists (a, b). split; [split; assumption|auto]. Qed.
Lemma wc_ex : forall r, r <> Full -> forall e, Valid r "writeConstraintType" e -> exists v, reads_wc e v /\ Then r conform_wc v.
Proof.
  opening. rd "writeAsRead" kind_bool a. rd "useEnumeratedValues" kind_bool b. ch "range" range_ex c. exists (mk_wc a b c).
  split; [repeat (split; [eassumption|]); assumption|]. intros ->. pose proof (three Rewritable _ "writeAsRead" "useEnumeratedValues" "range" e HB eq_refl) as H3.
  pose proof (cnt_nonneg "writeAsRead" e). pose proof (cnt_nonneg "useEnumeratedValues" e). pose proof (cnt_nonneg "range" e).
  unfold conform_wc. cbn. destruct a, b, c as [[lo hi]|]; cbn in *; try exact Logic.I; try lia; exact Cc.
Qed.
Lemma evc_ex : forall r, r <> Full -> forall e, Valid r "enumerationType" e -> exists v, reads_evc e v /\ Then r conform_evc v.
Proof.
  opening. ax "derivedFrom" kind_ref a. tx "name" kind_ident b. tx "headerEnumName" kind_ident c. rd "usage" kind_usage d.
  cs "enumeratedValue" ev_ex l. exists (mk_sevc b c d l a).
  split; [repeat (split; [eassumption|]); assumption|]. intros ->. split; [eapply oc_txt; eauto|]. split; [eapply oc_txt; eauto|].
  split; [eapply oc_txt; eauto|]. now apply (then_forall Rewritable).
Qed.
Lemma field_ex : forall r, r <> Full -> forall e, Valid r "fieldType" e -> exists v, reads_field e v /\ Then r conform_field v.
Proof.
  opening. ax "derivedFrom" kind_ref a. mu "name" kind_dimable n. rw "description" ds.
  rd "bitOffset" kind_int bo. rd "bitWidth" kind_int bw. rd "lsb" kind_int ls. rd "msb" kind_int ms. tx "bitRange" kind_bitrange br.
  ac acc. rd "modifiedWriteValues" kind_mwv mw. ch "writeConstraint" wc_ex wc. rd "readAction" kind_ra ra.
  cs "enumeratedValues" evc_ex l. destruct (dim_ex r _ e Hr HB) as (d & Hd & Cd); [comp|].
  exists (mk_sfield d n ds bo bw ls ms br acc mw wc ra l a).
  split; [repeat (split; [eassumption|]); assumption|]. intros ->.
  split; [eapply oc_txt; eauto|]. split; [now apply Cd|]. split; [now apply Cn|]. split; [eapply oc_txt; eauto|].
  split.
  - unfold conform_bits. cbn. split; [now apply oc_nonneg|]. split; [now apply oc_nonneg|]. split; [now apply oc_nonneg|].
    split; [now apply oc_nonneg|]. split; [eapply oc_txt; eauto|].
    pose proof (three Rewritable _ "lsb" "bitOffset" "bitRange" e HB eq_refl).
    pose proof (rarer Rewritable _ "lsb" "msb" e HB eq_refl). pose proof (rarer Rewritable _ "msb" "lsb" e HB eq_refl).
    pose proof (rarer Rewritable _ "bitOffset" "bitWidth" e HB eq_refl). pose proof (rarer Rewritable _ "bitWidth" "bitOffset" e HB eq_refl).
    pose proof (cnt_nonneg "lsb" e). pose proof (cnt_nonneg "bitOffset" e). pose proof (cnt_nonneg "bitRange" e).
    destruct ls, ms, bo, bw, br; cbn in *; try exact Logic.I; lia.
  - split; [eapply oc_holds; eauto|]. cbn. split; [now apply (then_forall Rewritable)|].
    pose proof (most Rewritable _ "enumeratedValues" 2 e HB eq_refl). lia.
Qed.
Lemma fields_ex : forall r, r <> Full -> forall e, Valid r "fieldsType" e -> exists v, Children "field" reads_field e v /\ Then r (Forall conform_field) v.
Proof. opening. cs "field" field_ex l. exists l. split; [exact Hl|]. intros H. now apply (then_forall r). Qed.
Lemma forall_concat {A} (P : A -> Prop) ll : Forall (Forall P) ll -> Forall P (concat ll).
Proof. induction 1; cbn; [constructor|]. now apply Forall_app. Qed.
Lemma reg_ex : forall r, r <> Full -> forall e, Valid r "registerType" e -> exists v, reads_reg e v /\ Then r conform_reg v.
Proof.
  opening. ax "derivedFrom" kind_ref a. mu "name" kind_dimable n. tx "displayName" kind_string dn. rw "description" ds.
  tx "alternateGroup" kind_ident ag. tx "alternateRegister" kind_dimable ar. mu "addressOffset" kind_int ao. rd "dataType" kind_dtype dt.
  rd "modifiedWriteValues" kind_mwv mw. ch "writeConstraint" wc_ex wc. rd "readAction" kind_ra ra.
  cs "fields" fields_ex ll. destruct (dim_ex r _ e Hr HB) as (d & Hd & Cd); [comp|]. destruct (props_ex r _ e Hr HB) as (p & Hp & Cp); [comp|].
  exists (mk_sreg d p n dn ds ag ar ao dt mw wc ra (concat ll) a).
  split.
  { repeat (split; [eassumption|]). split; [|split; assumption]. destruct Hll as (es & H1 & H2). exists es, ll. auto. }
  intros ->. split; [eapply oc_txt; eauto|]. split; [now apply Cd|]. split; [now apply Cn|]. split; [eapply oc_txt; eauto|].
  split; [eapply oc_txt; eauto|]. split; [eapply oc_txt; eauto|]. split; [eapply oc_txt; eauto|]. split.
  { pose proof (one_of Rewritable _ "alternateGroup" "alternateRegister" e HB eq_refl).
    pose proof (cnt_nonneg "alternateGroup" e). pose proof (cnt_nonneg "alternateRegister" e).
    cbn. destruct ag; [right|now left]. destruct ar; [|reflexivity]. cbn in *. lia. }
  split; [exact Cao|]. split; [exact Cp|]. split; [eapply oc_holds; eauto|]. cbn. apply forall_concat. now apply (then_forall Rewritable).
Qed.
Lemma clu_ex : forall r, r <> Full -> forall e, Body r "clusterType" e -> exists v, reads_clu e v /\ Then r conform_clu v.
Proof.
  intros r Hr e HB. ax "derivedFrom" kind_ref a. mu "name" kind_dimable n. tx "alternateCluster" kind_dimable ac0. tx "headerStructName" kind_ident hs.
  mu "addressOffset" kind_int ao.
  destruct (dim_ex r _ e Hr HB) as (d & Hd & Cd); [comp|]. destruct (props_ex r _ e Hr HB) as (p & Hp & Cp); [comp|].
  assert (Hds : exists ds, Raw "description" e ds /\ Then r (fun ds => otxt "stringType" ds /\ given ds) ds).
  { pose proof (most r _ "description" 1 e HB) as Hm. pose proof (least r _ "description" e HB) as Hl. destruct r; [contradiction| |].
    - destruct (raw_single Readable "xs:string" "description" e) as (o & Ho & _); [now apply kid_typed with "clusterType"|reflexivity|now apply Hm|].
      exists o. split; [exact Ho|]. intros H. discriminate.
    - destruct (b_raw Rewritable Hr _ e HB "description" eq_refl) as (o & Ho & Co & So). exists o. split; [exact Ho|]. intros _.
      split; [eapply oc_txt; eauto|]. rewrite (seen_given _ _ _ So). now apply Hl. }
  destruct Hds as (ds & Hds & Cds).
  exists (mk_sclu d p n ds ac0 hs ao a). split; [repeat (split; [eassumption|]); assumption|]. intros ->. destruct (Cds eq_refl) as [Cds1 Cds2].
  split; [eapply oc_txt; eauto|]. split; [now apply Cd|]. split; [now apply Cn|]. split; [exact Cds1|]. split; [exact Cds2|].
  split; [eapply oc_txt; eauto|]. split; [eapply oc_txt; eauto|]. split; [exact Cao|exact Cp].
Qed.
Definition CluOk (r : scope) (e : xml) : Prop := Valid r "clusterType" e ->
  exists c ch, reads_clu e c /\ reads_rcs (xml_kids e) ch /\ Then r conform_clu c /\ Then r (Forall conform_rc) ch.
Lemma rcs_ex r : r <> Full -> forall l, (forall c, In c l -> Named "register" c -> Valid r "registerType" c) ->
  (forall c, In c l -> Named "cluster" c -> Valid r "clusterType" c) -> (forall c, In c l -> CluOk r c) ->
  exists rs, reads_rcs l rs /\ Then r (Forall conform_rc) rs.
Proof.
  intros Hr. induction l as [|e l IH]; intros H1 H2 H3.
  - exists []. split; [constructor|]. intros _. constructor.
  - destruct IH as (rs & Hrs & Crs); [intros c Hc; apply H1; now right|intros c Hc; apply H2; now right|intros c Hc; apply H3; now right|].
    assert (He : In e (e :: l)) by now left.
    destruct (has_tag "register" e) eqn:Er; [|destruct (has_tag "cluster" e) eqn:Ec].
    + apply has_tag_iff in Er. destruct (reg_ex r Hr e (H1 e He Er)) as (v & Hv & Cv). exists (SReg v :: rs).
      split; [now apply rcs_reg|]. intros H. constructor; [constructor; now apply Cv|now apply Crs].
    + apply has_tag_iff in Ec. destruct (H3 e He (H2 e He Ec)) as (c & chs & Hc & Hch & Cc & Cch). exists (SClu c chs :: rs).
      split; [now apply rcs_clu|]. intros H. constructor; [constructor; [now apply Cc|now apply Cch]|now apply Crs].
    + exists rs. split; [|exact Crs]. apply rcs_skip; [| |exact Hrs]; intros H; apply has_tag_iff in H; congruence.
Qed.
Lemma cluster_ex r : r <> Full -> forall e, CluOk r e.
Proof.
  intros Hr. apply xml_ind2.
  - intros t a x ks IH Hv. assert (HB : Body r "clusterType" (Elem t a x ks)) by (apply body_of; [exact Hv|comp]).
    destruct (clu_ex r Hr _ HB) as (c & Hc & Cc). destruct (rcs_ex r Hr ks) as (rs & Hrs & Crs).
    + apply (kid_typed r "clusterType" "register" "registerType" _ HB). comp.
    + apply (kid_typed r "clusterType" "cluster" "clusterType" _ HB). comp.
    + rewrite Forall_forall in IH. exact IH.
    + exists c, rs. auto.
  - intros Hv. inversion Hv.
Qed.
Lemma registers_ex : forall r, r <> Full -> forall e, Valid r "registersType" e -> exists v, reads_rcs (xml_kids e) v /\ Then r (Forall conform_rc) v.
Proof.
  opening. apply (rcs_ex r Hr).
  - apply (kid_typed r "registersType" "register" "registerType" _ HB). comp.
  - apply (kid_typed r "registersType" "cluster" "clusterType" _ HB). comp.
  - intros c _. now apply cluster_ex.
Qed.
Lemma reads_rcs_app l l' r r' : reads_rcs l r -> reads_rcs l' r' -> reads_rcs (l ++ l') (r ++ r').
Proof. intros H H'. induction H; cbn; [exact H'|now apply rcs_reg|now apply rcs_clu|now apply rcs_skip]. Qed.
Lemma ab_ex : forall r, r <> Full -> forall e, Valid r "addressBlockType" e -> exists v, reads_ab e v /\ Then r conform_ab v.
Proof.
  opening. mu "offset" kind_int a. mu "size" kind_int b. mu "usage" kind_ab u. rd "protection" kind_prot p. exists (mk_sab a b u p). split.
  - split; [|repeat (split; [eassumption|]); assumption]. destruct Ha as (t & Ht & Hi). exists (Some a). split; [exists (Some t); auto|reflexivity].
  - intros _. split; [exact Ca|]. split; [exact Cb|now apply oc_any].
Qed.
Lemma int_ex : forall r, r <> Full -> forall e, Valid r "interruptType" e -> exists v, reads_int e v /\ Then r conform_int v.
Proof.
  opening. mu "name" kind_string n. mu "value" kind_integer v.
  destruct (raw_single r "xs:string" "description" e) as (o & Ho & _).
  { apply (kid_typed r "interruptType" _ _ _ HB). comp. } { comp. } { apply (most r "interruptType" _ _ _ HB). comp. }
  exists (mk_int n o v). split; [|exact Cn]. split; [exact Hn|]. split; [exact Ho|].
  destruct Hv as (t & Ht & Hi). exists (Some v). split; [exists (Some t); auto|reflexivity].
Qed.
Lemma per_ex : forall r, r <> Full -> forall e, Valid r "peripheralType" e -> exists v, reads_per e v /\ Then r conform_per v.
Proof.
  opening. ax "derivedFrom" kind_dimable a. mu "name" kind_dimable n. tx "version" kind_string ve. rw "description" ds.
  tx "alternatePeripheral" kind_dimable ap. tx "groupName" kind_name g. tx "prependToName" kind_ident pr. tx "appendToName" kind_ident app0.
  tx "headerStructName" kind_dimable hs. rw "disableCondition" dc. mu "baseAddress" kind_int ba. cs "addressBlock" ab_ex abs.
  cs "interrupt" int_ex ints. cs "registers" registers_ex ll.
  destruct (dim_ex r _ e Hr HB) as (d & Hd & Cd); [comp|]. destruct (props_ex r _ e Hr HB) as (p & Hp & Cp); [comp|].
  exists (mk_sper d p n ve ds ap g pr app0 hs dc ba abs ints (concat ll) a). split.
  { repeat (split; [eassumption|]). split; [|split; assumption]. destruct Hll as (es & H1 & H2). exists es. split; [exact H1|]. cbn.
    clear - H2. induction H2; cbn; [constructor|]. now apply reads_rcs_app. }
  intros ->. do 1 (split; [eapply oc_txt; eauto|]). split; [now apply Cd|]. split; [now apply Cn|].
  do 8 (split; [eapply oc_txt; eauto|]). split; [exact Cba|]. split; [exact Cp|].
  split; [now apply (then_forall Rewritable)|]. split; [now apply (then_forall Rewritable)|]. cbn. apply forall_concat. now apply (then_forall Rewritable).
Qed.
Lemma region_ex : forall r, r <> Full -> forall e, Valid r "region" e -> exists v, reads_sau_region e v /\ Then r conform_region v.
Proof.
  opening. at "enabled" kind_bool a. ax "name" kind_xstring b. mu "base" kind_int c. mu "limit" kind_int d. mu "access" kind_sau f.
  exists (mk_ssr a b c d f). split; [repeat (split; [eassumption|]); assumption|]. intros _. split; assumption.
Qed.
Lemma sau_ex : forall r, r <> Full -> forall e, Valid r "sauRegionsConfig" e -> exists v, reads_sau e v /\ Then r conform_sau v.
Proof.
  opening. at "enabled" kind_bool a. at "protectionWhenDisabled" kind_prot b. cs "region" region_ex l.
  exists (mk_ssc a b l). split; [repeat (split; [eassumption|]); assumption|]. intros ->. split; [now apply oc_any|now apply (then_forall Rewritable)].
Qed.
Lemma cpu_ex : forall r, r <> Full -> forall e, Valid r "cpuType" e -> exists v, reads_cpu e v /\ Then r conform_cpu v.
Proof.
  opening. mu "name" kind_cpu n. mu "revision" kind_rev rv. mu "endian" kind_endian en.
  rd "mpuPresent" kind_bool b1. rd "fpuPresent" kind_bool b2. rd "fpuDP" kind_bool b3. rd "dspPresent" kind_bool b4. rd "icachePresent" kind_bool b5.
  rd "dcachePresent" kind_bool b6. rd "itcmPresent" kind_bool b7. rd "dtcmPresent" kind_bool b8. rd "vtorPresent" kind_bool b9.
  mu "nvicPrioBits" kind_int nv. mu "vendorSystickConfig" kind_bool sy. rd "deviceNumInterrupts" kind_int ni. rd "sauNumRegions" kind_int sn.
  ch "sauRegionsConfig" sau_ex sa.
  exists (mk_scpu n rv en b1 b2 b3 b4 b5 b6 b7 b8 b9 nv sy ni sn sa). split; [repeat (split; [eassumption|]); assumption|]. intros ->.
  split; [now apply Crv|]. split; [exact Cnv|]. split; [now apply oc_nonneg|]. split; [now apply oc_nonneg|]. eapply oc_holds; eauto.
Qed.
Lemma peripherals_ex : forall r, r <> Full -> forall e, Valid r "peripherals" e ->
  exists v, Children "peripheral" reads_per e v /\ Then r (fun v => v <> [] /\ Forall conform_per v) v.
Proof.
  opening. cs "peripheral" per_ex l. exists l. split; [exact Hl|]. intros ->.
  pose proof (least Rewritable _ "peripheral" e HB eq_refl). split; [intros ->; cbn in Sl; lia|now apply (then_forall Rewritable)].
Qed.

(** ** The device *)
Lemma attr_always n e : exists o, Attr n e o.
Proof.
  destruct (find (fun p => String.eqb (fst p) n) (xml_attrs e)) as [[m v]|] eqn:Ef.
  - apply find_split in Ef as (l1 & l2 & Hs & Hm & Hf). cbn in Hm. apply String.eqb_eq in Hm as ->. exists (Some (strip v)). right.
    exists v, (strip v), l1, l2. split; [exact Hs|]. split; [|split; [now apply stripped_iff|reflexivity]]. intros Hin.
    apply in_map_iff in Hin as ([x y] & <- & Hin). specialize (Hf _ Hin). cbn in Hf. now rewrite String.eqb_refl in Hf.
  - exists None. left. split; [|reflexivity]. intros v Hi. pose proof (find_none _ _ Ef _ Hi) as H. cbn in H. now rewrite String.eqb_refl in H.
Qed.
Lemma prefix_dec ns p : (exists u, Prefix ns p u) \/ NoPrefix ns p.
Proof.
  destruct (find (fun q => String.eqb (fst q) p) ns) as [[m v]|] eqn:Ef.
  - left. apply find_split in Ef as (l1 & l2 & -> & Hm & Hf). cbn in Hm. apply String.eqb_eq in Hm as ->. exists v, l1, l2. split; [reflexivity|].
    intros Hin. apply in_map_iff in Hin as ([x y] & <- & Hin). specialize (Hf _ Hin). cbn in Hf. now rewrite String.eqb_refl in Hf.
  - right. intros Hin. apply in_map_iff in Hin as ([x y] & <- & Hin). pose proof (find_none _ _ Ef _ Hin) as H. cbn in H. now rewrite String.eqb_refl in H.
Qed.
Lemma location_ex doc : exists s, reads_location doc s.
Proof.
  assert (Hn : exists u, SchemaNs (doc_nsmap doc) u).
  { destruct (prefix_dec (doc_nsmap doc) "xs") as [[u Hu]|H1]; [exists (Some u); left; eauto|].
    destruct (prefix_dec (doc_nsmap doc) "xsi") as [[u Hu]|H2]; [exists (Some u); right; left; eauto|]. exists None. right. right. auto. }
  destruct Hn as (u & Hu). destruct u as [uri|].
  - destruct (attr_always ("{" ++ uri ++ "}noNamespaceSchemaLocation") (doc_root doc)) as (o & Ho).
    destruct o as [s|]; [exists s|exists ""]; exists (Some uri); (split; [exact Hu|]); eexists; (split; [exact Ho|reflexivity]).
  - exists "". exists None. auto.
Qed.
Lemma attr_given n e v t : NoDup (map fst (xml_attrs e)) -> In (n, v) (xml_attrs e) -> Stripped v t -> Attr n e (Some t).
Proof.
  intros Hnd Hi Ht. apply in_split in Hi as (l1 & l2 & Hs). right. exists v, t, l1, l2. split; [exact Hs|]. split; [|auto].
  rewrite Hs, map_app in Hnd. cbn in Hnd. apply NoDup_remove_2 in Hnd. intros H. apply Hnd. apply in_app_iff. now left.
Qed.
Theorem device_ex r doc : r <> Full -> ValidDoc r doc -> exists d, reads_device doc d /\ Then r conform_device d.
Proof.
  intros Hr (attrs & t0 & ks & Hroot & Hnd & Hv). destruct (location_ex doc) as (xs & Hxs).
  set (e := Elem "device" (filter (fun p => negb (String.eqb (fst p) location_attr)) attrs) t0 ks) in *.
  assert (HB : Body r "device" e) by (apply body_of; [exact Hv|comp]).
  assert (Hsv : exists s, Attr "schemaVersion" (doc_root doc) (Some s) /\ Keeps r "xs:decimal" s).
  { destruct HB as [(_ & Ha & Hq) _]. 
    assert (Hreq : In "schemaVersion" (map fst (xml_attrs e))) by (apply (Hq "schemaVersion" "xs:decimal"); destruct r; now left).
    apply in_map_iff in Hreq as ([n v] & Hn & Hi). cbn in Hn. subst n. destruct (Ha _ _ Hi) as (ty & req & Hd & HS).
    assert (ty = "xs:decimal") as ->.
    { destruct r; destruct Hd as [Hd|[]]; now injection Hd. }
    destruct (kind_decimal r Hr v HS) as (t & s & Ht & Hs & Cs). unfold Is in Hs. subst s. exists t. split; [|exact Cs].
    rewrite Hroot. eapply attr_given; [exact Hnd| |exact Ht]. cbn in Hi. now apply filter_In in Hi. }
  destruct Hsv as (sv & Hsv & Csv).
  tx "vendor" kind_string vd. tx "vendorID" kind_ident vi. mu "name" kind_ident n. tx "series" kind_string se. mu "version" kind_string ve.
  rw "description" ds. rw "licenseText" li. ch "cpu" cpu_ex cp. tx "headerSystemFilename" kind_ident hf. tx "headerDefinitionsPrefix" kind_ident hd.
  mu "addressUnitBits" kind_int au. mu "width" kind_int wi. destruct (props_ex r _ e Hr HB) as (p & Hp & Cp); [comp|].
  ch "peripherals" peripherals_ex ps.
  pose proof (least r _ "peripherals" e HB ltac:(comp)) as Hpc. pose proof (least r _ "description" e HB ltac:(comp)) as Hdc.
  destruct ps as [ps|]; [|unfold Seen in Sps; lia]. destruct ds as [ds|]; [|unfold Seen in Sds; lia].
  assert (He : forall (P : xml -> Prop), (forall a, P (Elem "device" a t0 ks)) -> P (doc_root doc)) by (intros P H; rewrite Hroot; apply H).
  exists (mk_sdev p xs sv vd vi n se ve ds li cp hf hd au wi ps). split.
  - unfold reads_device. split; [exact Hxs|]. split; [exact Hsv|]. rewrite Hroot.
    do 5 (split; [eassumption|]). split; [exists (Some ds); split; [exact Hds|reflexivity]|]. do 7 (split; [eassumption|]).
    destruct Hps as [[_ H]|(c & v & H1 & H2 & H3)]; [discriminate|]. injection H3 as <-. exists c. split; [exact H1|exact H2].
  - intros ->. destruct (Cps eq_refl) as [Cps1 Cps2].
    split; [now apply Csv|]. do 2 (split; [eapply oc_txt; eauto|]). split; [now apply Cn|]. split; [eapply oc_txt; eauto|]. split; [now apply Cve|].
    split; [now apply Cds|]. split; [eapply oc_txt; eauto|]. split; [eapply oc_holds; eauto|]. do 2 (split; [eapply oc_txt; eauto|]).
    split; [exact Cau|]. split; [exact Cwi|]. split; [exact Cp|]. split; [exact Cps1|exact Cps2].
Qed.
