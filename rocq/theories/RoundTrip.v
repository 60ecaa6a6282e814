(** * RoundTrip: reading back what the serializer writes (lemmas for C27) *)
From Verif Require Import Base PyStr PyInt Types ParseModel SerializeModel SpecText TextFacts SpecRoundTrip.

(** ** Computations that succeed, whatever they warn about *)
Definition yields {A} (m : M A) (a : A) : Prop := exists ws, m = (ws, Ok a).
Lemma yields_ret {A} (a : A) : yields (ret a) a. Proof. now exists []. Qed.
Lemma yields_bind {A B} (m : M A) (f : A -> M B) a b : yields m a -> yields (f a) b -> yields (bind m f) b.
Proof. intros [w H] [w' H']. exists (w ++ w'). now apply (bind_ok_intro _ _ _ a). Qed.
Lemma yields_eq {A} (m : M A) a b : yields m a -> a = b -> yields m b.
Proof. now intros H <-. Qed.
Lemma yields_warn_if b w : yields (warn_if b w) tt.
Proof. destruct b; [now exists [w]|now exists []]. Qed.
Lemma yields_opt_m {A B} (f : A -> M B) (o : option A) (g : A -> B) :
  (forall a, o = Some a -> yields (f a) (g a)) -> yields (opt_m f o) (option_map g o).
Proof.
  destruct o as [a|]; intros H; cbn [opt_m option_map]; [|apply yields_ret].
  eapply yields_bind; [apply H; reflexivity|apply yields_ret].
Qed.

(** ** The tree read back *)
Scheme Reread_ind2 := Minimality for Reread Sort Prop with RereadL_ind2 := Minimality for RereadL Sort Prop.

Lemma Reread_tag n x y : Reread x y -> has_tag n y = has_tag n x.
Proof. inversion 1; reflexivity. Qed.
Lemma Reread_attrs x y : Reread x y -> xml_attrs y = xml_attrs x.
Proof. inversion 1; reflexivity. Qed.
Lemma Reread_kids x y : Reread x y -> RereadL (xml_kids x) (xml_kids y).
Proof. inversion 1; subst; cbn; [constructor|constructor; auto]. Qed.
Lemma RereadL_filter n l l' : RereadL l l' -> RereadL (filter (has_tag n) l) (filter (has_tag n) l').
Proof.
  induction 1; cbn [filter]; [constructor|]. rewrite (Reread_tag n _ _ H). destruct (has_tag n k); [constructor|]; auto.
Qed.
Lemma Reread_findall n x y : Reread x y -> RereadL (findall n x) (findall n y).
Proof. intros H. apply RereadL_filter, Reread_kids, H. Qed.
Lemma RereadL_nil_inv l : RereadL [] l -> l = []. Proof. inversion 1; auto. Qed.
Lemma RereadL_cons_inv x l l' : RereadL (x :: l) l' -> exists y r, l' = y :: r /\ Reread x y /\ RereadL l r.
Proof. inversion 1; subst. eauto. Qed.
Lemma RereadL_app_inv a b l : RereadL (a ++ b) l -> exists l1 l2, l = l1 ++ l2 /\ RereadL a l1 /\ RereadL b l2.
Proof.
  revert l. induction a as [|x a IH]; intros l H; cbn [app] in H; [exists [], l; repeat split; auto; constructor|].
  apply RereadL_cons_inv in H as (y & r & -> & H1 & H2). apply IH in H2 as (l1 & l2 & -> & H2 & H3).
  exists (y :: l1), l2. repeat split; auto. constructor; auto.
Qed.
Lemma Reread_leaf_inv n t y : Reread (leaf n t) y -> y = Elem n [] (norm_text (Some t)) [].
Proof. unfold leaf. inversion 1; reflexivity. Qed.

(** ** Searching in a tree built by the serializer *)
Lemma ft_oleaf {A} n m (f : A -> string) o : filter (has_tag n) (oleaf m f o) = if String.eqb m n then oleaf m f o else [].
Proof. destruct o; cbn; destruct (String.eqb m n); reflexivity. Qed.
Lemma ft_leaf n m t : filter (has_tag n) [leaf m t] = if String.eqb m n then [leaf m t] else [].
Proof. cbn; destruct (String.eqb m n); reflexivity. Qed.
Lemma ft_leaf_cons n m t l : filter (has_tag n) (leaf m t :: l) = (if String.eqb m n then [leaf m t] else []) ++ filter (has_tag n) l.
Proof. cbn; destruct (String.eqb m n); reflexivity. Qed.
Definition tagged {A} (f : A -> xml) (m : string) : Prop := forall a n, has_tag n (f a) = String.eqb m n.
Lemma ft_oelem {A} n m (f : A -> xml) o : tagged f m -> filter (has_tag n) (oelem f o) = if String.eqb m n then oelem f o else [].
Proof. intros H. destruct o as [a|]; cbn [oelem filter]; [rewrite H|]; destruct (String.eqb m n); reflexivity. Qed.
Lemma ft_map {A} n m (f : A -> xml) l : tagged f m -> filter (has_tag n) (map f l) = if String.eqb m n then map f l else [].
Proof.
  intros H. induction l as [|a l IH]; cbn [map filter]; [destruct (String.eqb m n); reflexivity|].
  rewrite H, IH. destruct (String.eqb m n); reflexivity.
Qed.
Lemma ft_section n m l : filter (has_tag n) (section m l) = if String.eqb m n then section m l else [].
Proof. unfold section. destruct (is_nil l); cbn; destruct (String.eqb m n); reflexivity. Qed.
Lemma ft_pair n n1 n2 a b : n1 <> n2 -> filter (has_tag n) (pair_xml n1 n2 a b) =
  if String.eqb n1 n then oleaf n1 str_of_Z (fst (kept_pair a b))
  else if String.eqb n2 n then oleaf n2 str_of_Z (snd (kept_pair a b)) else [].
Proof.
  intros Hne. destruct a, b; cbn [pair_xml kept_pair fst snd oleaf filter];
    try (destruct (String.eqb n1 n), (String.eqb n2 n); reflexivity).
  cbn [has_tag leaf]. destruct (String.eqb_spec n1 n), (String.eqb_spec n2 n); try reflexivity. congruence.
Qed.

Lemma t_sau_region : tagged sau_region_xml "region". Proof. now intros a n. Qed.
Lemma t_sau_config : tagged sau_config_xml "sauRegionsConfig". Proof. now intros a n. Qed.
Lemma t_cpu : tagged cpu_xml "cpu". Proof. now intros a n. Qed.
Lemma t_ev : tagged ev_xml "enumeratedValue". Proof. now intros a n. Qed.
Lemma t_dai : tagged dai_xml "dimArrayIndex". Proof. now intros a n. Qed.
Lemma t_ab : tagged ab_xml "addressBlock". Proof. now intros a n. Qed.
Lemma t_int : tagged interrupt_xml "interrupt". Proof. now intros a n. Qed.
Lemma t_wc : tagged wc_xml "writeConstraint". Proof. now intros a n. Qed.
Lemma t_evc : tagged evc_xml "enumeratedValues". Proof. now intros a n. Qed.
Lemma t_field : tagged field_xml "field". Proof. now intros a n. Qed.
Lemma t_per : tagged per_xml "peripheral". Proof. now intros a n. Qed.
Lemma t_range : tagged (fun r : Z * Z => Elem "range" [] None [leaf "minimum" (str_of_Z (fst r)); leaf "maximum" (str_of_Z (snd r))]) "range".
Proof. now intros a n. Qed.

(** compute [findall n (serializer output)]: skip the parts with another tag, take the one with that tag *)
Definition none_of (n : string) (l : list xml) : Prop := filter (has_tag n) l = [].
Lemma no_app n a b : none_of n a -> none_of n b -> none_of n (a ++ b).
Proof. unfold none_of. rewrite filter_app. now intros -> ->. Qed.
Lemma no_nil n : none_of n []. Proof. reflexivity. Qed.
Lemma no_leaf n m t l : String.eqb m n = false -> none_of n l -> none_of n (leaf m t :: l).
Proof. unfold none_of. cbn. now intros ->. Qed.
Lemma no_oleaf {A} n m (f : A -> string) o : String.eqb m n = false -> none_of n (oleaf m f o).
Proof. unfold none_of. rewrite ft_oleaf. now intros ->. Qed.
Lemma no_oelem {A} n m (f : A -> xml) o : tagged f m -> String.eqb m n = false -> none_of n (oelem f o).
Proof. unfold none_of. intros Ht. rewrite (ft_oelem n m f o Ht). now intros ->. Qed.
Lemma no_map {A} n m (f : A -> xml) l : tagged f m -> String.eqb m n = false -> none_of n (map f l).
Proof. unfold none_of. intros Ht. rewrite (ft_map n m f l Ht). now intros ->. Qed.
Lemma no_section n m l : String.eqb m n = false -> none_of n (section m l).
Proof. unfold none_of. rewrite ft_section. now intros ->. Qed.
Lemma no_pair n n1 n2 a b : String.eqb n1 n2 = false -> String.eqb n1 n = false -> String.eqb n2 n = false -> none_of n (pair_xml n1 n2 a b).
Proof. unfold none_of. intros H. apply String.eqb_neq in H. rewrite ft_pair by exact H. now intros -> ->. Qed.
Lemma no_dim n d : mem_str n ["dim"; "dimIncrement"; "dimIndex"; "dimName"; "dimArrayIndex"] = false -> none_of n (dim_xml d).
Proof.
  intros H. unfold mem_str in H. cbn [existsb] in H. rewrite !orb_false_iff, !(String.eqb_sym n) in H. destruct H as (H1 & H2 & H3 & H4 & H5 & _).
  repeat apply no_app; try apply no_oleaf; auto. apply (no_oelem _ _ _ _ t_dai); auto.
Qed.
Lemma no_props n p : mem_str n ["size"; "access"; "protection"; "resetValue"; "resetMask"] = false -> none_of n (props_xml p).
Proof.
  intros H. unfold mem_str in H. cbn [existsb] in H. rewrite !orb_false_iff, !(String.eqb_sym n) in H. destruct H as (H1 & H2 & H3 & H4 & H5 & _).
  repeat apply no_app; try apply no_oleaf; auto.
Qed.
Lemma fo_skip n a b r : none_of n a -> filter (has_tag n) b = r -> filter (has_tag n) (a ++ b) = r.
Proof. unfold none_of. rewrite filter_app. now intros -> ->. Qed.
Lemma fo_hit n a b r : filter (has_tag n) a = r -> none_of n b -> filter (has_tag n) (a ++ b) = r.
Proof. unfold none_of. rewrite filter_app. intros -> ->. apply app_nil_r. Qed.
Lemma fo_leaf_skip n m t l r : String.eqb m n = false -> filter (has_tag n) l = r -> filter (has_tag n) (leaf m t :: l) = r.
Proof. cbn. now intros ->. Qed.
Lemma fo_leaf_hit n t l : none_of n l -> filter (has_tag n) (leaf n t :: l) = [leaf n t].
Proof. unfold none_of. cbn. rewrite String.eqb_refl. now intros ->. Qed.
Lemma fo_oleaf {A} n (f : A -> string) o : filter (has_tag n) (oleaf n f o) = oleaf n f o.
Proof. now rewrite ft_oleaf, String.eqb_refl. Qed.
Lemma fo_oelem {A} n (f : A -> xml) o : tagged f n -> filter (has_tag n) (oelem f o) = oelem f o.
Proof. intros H. now rewrite (ft_oelem n n f o H), String.eqb_refl. Qed.
Lemma fo_map {A} n (f : A -> xml) l : tagged f n -> filter (has_tag n) (map f l) = map f l.
Proof. intros H. now rewrite (ft_map n n f l H), String.eqb_refl. Qed.
Lemma fo_section n l : filter (has_tag n) (section n l) = section n l.
Proof. now rewrite ft_section, String.eqb_refl. Qed.
Lemma fo_pair1 n n2 a b : String.eqb n n2 = false -> filter (has_tag n) (pair_xml n n2 a b) = oleaf n str_of_Z (fst (kept_pair a b)).
Proof. intros H. apply String.eqb_neq in H. now rewrite ft_pair, String.eqb_refl. Qed.
Lemma fo_pair2 n1 n a b : String.eqb n1 n = false -> filter (has_tag n) (pair_xml n1 n a b) = oleaf n str_of_Z (snd (kept_pair a b)).
Proof. intros H. rewrite ft_pair by (now apply String.eqb_neq). now rewrite H, String.eqb_refl. Qed.

Ltac tg := first [ exact t_sau_region | exact t_sau_config | exact t_cpu | exact t_ev | exact t_dai | exact t_ab | exact t_int
  | exact t_wc | exact t_evc | exact t_field | exact t_per | exact t_range ].
Ltac look_no :=
  lazymatch goal with
  | |- none_of _ (_ ++ _) => apply no_app; [look_no|look_no]
  | |- none_of _ [] => apply no_nil
  | |- none_of _ (leaf _ _ :: _) => apply no_leaf; [reflexivity|look_no]
  | |- none_of _ (oleaf _ _ _) => apply no_oleaf; reflexivity
  | |- none_of _ (oelem _ _) => eapply no_oelem; [tg|reflexivity]
  | |- none_of _ (map _ _) => eapply no_map; [tg|reflexivity]
  | |- none_of _ (section _ _) => apply no_section; reflexivity
  | |- none_of _ (pair_xml _ _ _ _) => apply no_pair; reflexivity
  | |- none_of _ (dim_xml _) => apply no_dim; reflexivity
  | |- none_of _ (props_xml _) => apply no_props; reflexivity
  end.
Ltac look_in :=
  lazymatch goal with
  | |- filter _ (_ ++ _) = _ => first [ apply fo_skip; [look_no|look_in] | apply fo_hit; [look_in|look_no] ]
  | |- filter _ (leaf _ _ :: _) = _ => first [ apply fo_leaf_skip; [reflexivity|look_in] | apply fo_leaf_hit; look_no ]
  | |- filter _ (oleaf _ _ _) = _ => apply fo_oleaf
  | |- filter _ (oelem _ _) = _ => apply fo_oelem; tg
  | |- filter _ (map _ _) = _ => apply fo_map; tg
  | |- filter _ (section _ _) = _ => apply fo_section
  | |- filter _ (pair_xml _ _ _ _) = _ => first [apply fo_pair1; reflexivity | apply fo_pair2; reflexivity]
  | |- filter _ (dim_xml _) = _ => unfold dim_xml; look_in
  | |- filter _ (props_xml _) = _ => unfold props_xml; look_in
  end.
Ltac look :=
  unfold findall;
  lazymatch goal with |- context [xml_kids ?e] =>
    let k := eval hnf in e in lazymatch k with Elem _ _ _ ?ks => change (xml_kids e) with ks end end;
  look_in.

(** ** Reading one text *)
Lemma text_of_leaf n strip_it t y x : Reread x y -> findall n x = [leaf n t] ->
  yields (text_of n strip_it y) (if String.eqb t "" then None else Some (if strip_it then strip t else t)).
Proof.
  intros H Hf. pose proof (Reread_findall n _ _ H) as Hy. rewrite Hf in Hy.
  apply RereadL_cons_inv in Hy as (k & r & Hy & Hk & Hr). apply RereadL_nil_inv in Hr. subst r.
  apply Reread_leaf_inv in Hk. subst k. unfold text_of. rewrite Hy. cbn [List.length last_opt xml_text norm_text].
  change (1 <? Z.of_nat 1) with false. cbn iota. rewrite bind_ret_l.
  destruct (String.eqb t "") eqn:Ht; [apply yields_ret|].
  destruct strip_it; [|apply yields_ret].
  eapply yields_bind; [|apply yields_ret]. unfold strip_warn. eapply yields_bind; [apply yields_warn_if|apply yields_ret].
Qed.
Lemma text_of_none n strip_it y x : Reread x y -> findall n x = [] -> yields (text_of n strip_it y) None.
Proof.
  intros H Hf. pose proof (Reread_findall n _ _ H) as Hy. rewrite Hf in Hy. apply RereadL_nil_inv in Hy.
  unfold text_of. rewrite Hy. apply yields_ret.
Qed.

Lemma y_opt_text n o x y : Reread x y -> findall n x = oleaf n sid o -> yields (opt_text n y) (kept o).
Proof.
  intros H Hf. destruct o as [t|]; cbn [oleaf kept] in *.
  - apply (text_of_leaf n true t y x H Hf).
  - eapply text_of_none; eauto.
Qed.
Lemma y_raw n o x y : Reread x y -> findall n x = oleaf n sid o -> yields (text_of n false y) (kept_raw o).
Proof.
  intros H Hf. destruct o as [t|]; cbn [oleaf kept_raw] in *.
  - apply (text_of_leaf n false t y x H Hf).
  - eapply text_of_none; eauto.
Qed.
Lemma y_req_text n t x y : Reread x y -> findall n x = [leaf n t] -> t <> "" -> yields (req_text n true y) (strip t).
Proof.
  intros H Hf Hne. unfold req_text. eapply yields_bind; [apply (text_of_leaf n true t y x H Hf)|].
  apply String.eqb_neq in Hne. rewrite Hne. apply yields_ret.
Qed.
(** keyword texts: never empty, never stripped *)
Lemma y_keyword {A} n (f : A -> string) o x y : (forall a, f a <> "" /\ strip (f a) = f a) ->
  Reread x y -> findall n x = oleaf n f o -> yields (opt_text n y) (option_map f o).
Proof.
  intros Hk H Hf. destruct o as [a|]; cbn [oleaf option_map] in *; [|eapply text_of_none; eauto].
  pose proof (text_of_leaf n true _ y x H Hf) as Hy. destruct (Hk a) as [H1 H2].
  apply String.eqb_neq in H1. now rewrite H1, H2 in Hy.
Qed.
Lemma y_req_keyword n t x y : t <> "" -> strip t = t -> Reread x y -> findall n x = [leaf n t] -> yields (req_text n true y) t.
Proof. intros H1 H2 H Hf. rewrite <- H2. eapply y_req_text; eauto. Qed.

Lemma nat_str_ne b n : good_base b -> 0 <= n -> nat_str b n <> "".
Proof. apply nat_str_nonempty. Qed.
Lemma str_ne n : str_of_Z n <> "".
Proof. unfold str_of_Z. destruct (n <? 0) eqn:H; [discriminate|]. apply nat_str_nonempty; [apply good10|lia]. Qed.
Lemma hex_ne n : hex_of_Z n <> "".
Proof. unfold hex_of_Z. destruct (n <? 0); discriminate. Qed.
Definition int_text (f : Z -> string) : Prop := forall n, f n <> "" /\ strip (f n) = f n /\ to_int (f n) = ret n.
Lemma str_int : int_text str_of_Z. Proof. intros n; repeat split; [apply str_ne|apply strip_str|apply to_int_str]. Qed.
Lemma hex_int : int_text hex_of_Z. Proof. intros n; repeat split; [apply hex_ne|apply strip_hex|apply to_int_hex]. Qed.

Lemma y_opt_int n f o x y : int_text f -> Reread x y -> findall n x = oleaf n f o -> yields (opt_int n y) o.
Proof.
  intros Hi H Hf. unfold opt_int. eapply yields_bind.
  - apply (y_keyword n f o x y); auto. intros a. split; apply (Hi a).
  - destruct o as [z|]; cbn [option_map opt_m]; [|apply yields_ret].
    rewrite (proj2 (proj2 (Hi z))). eapply yields_bind; apply yields_ret.
Qed.
Lemma y_req_int n f z x y : int_text f -> Reread x y -> findall n x = [leaf n (f z)] -> yields (req_int n y) z.
Proof.
  intros Hi H Hf. destruct (Hi z) as (H1 & H2 & H3). unfold req_int.
  eapply yields_bind; [eapply y_req_text; eauto|]. rewrite H2, H3. apply yields_ret.
Qed.
Lemma y_opt_bool n o x y : Reread x y -> findall n x = oleaf n bool_text o -> yields (opt_bool n y) o.
Proof.
  intros H Hf. unfold opt_bool. eapply yields_bind.
  - apply (y_keyword n bool_text o x y); auto. intros []; split; (discriminate || reflexivity).
  - destruct o as [b|]; cbn [option_map opt_m]; [|apply yields_ret]. rewrite to_bool_text. eapply yields_bind; apply yields_ret.
Qed.
Lemma y_from {A} (f : string -> option A) (v : A -> string) a : f (v a) = Some a -> yields (from_str f (v a)) a.
Proof. intros H. unfold from_str. rewrite H. apply yields_ret. Qed.
Lemma y_opt_from {A} (f : string -> option A) (v : A -> string) o : (forall a, f (v a) = Some a) ->
  yields (opt_m (from_str f) (option_map v o)) o.
Proof.
  intros H. destruct o as [a|]; cbn [option_map opt_m]; [|apply yields_ret].
  eapply yields_bind; [apply y_from, H|apply yields_ret].
Qed.
Lemma y_access o : yields (match option_map access_value o with None => ret None | Some t => access_from_str t end) o.
Proof. destruct o as [a|]; cbn [option_map]; [rewrite access_value_rt|]; apply yields_ret. Qed.

Lemma y_attr n o x y : Reread x y -> xget n x = o -> yields (attr_of n y) (option_map strip o).
Proof.
  intros H Hx. unfold attr_of. assert (Hy : xget n y = o) by (unfold xget in *; now rewrite (Reread_attrs _ _ H)).
  rewrite Hy. destruct o as [t|]; cbn [option_map]; [|apply yields_ret].
  eapply yields_bind; [|apply yields_ret]. unfold strip_warn. eapply yields_bind; [apply yields_warn_if|apply yields_ret].
Qed.

(** ** Reading lists of elements *)
Lemma y_mapM {A B} (f : xml -> M B) (g : A -> xml) (h : A -> B) l ys :
  RereadL (map g l) ys -> (forall a y, In a l -> Reread (g a) y -> yields (f y) (h a)) -> yields (mapM f ys) (map h l).
Proof.
  revert ys. induction l as [|a l IH]; intros ys H Hf; cbn [map] in *.
  - apply RereadL_nil_inv in H. subst. apply yields_ret.
  - apply RereadL_cons_inv in H as (y & r & -> & H1 & H2). cbn [mapM].
    eapply yields_bind; [apply Hf; [left; reflexivity|exact H1]|].
    eapply yields_bind; [apply IH; [exact H2|intros; apply Hf; [right; auto|auto]]|apply yields_ret].
Qed.
Lemma y_findall {A B} n (f : xml -> M B) (g : A -> xml) (h : A -> B) l x y :
  Reread x y -> findall n x = map g l -> (forall a y, In a l -> Reread (g a) y -> yields (f y) (h a)) ->
  yields (mapM f (findall n y)) (map h l).
Proof. intros H Hf Hg. apply (y_mapM f g h l); auto. rewrite <- Hf. apply Reread_findall, H. Qed.
Lemma y_find {A B} n (f : xml -> M B) (g : A -> xml) (h : A -> B) o x y :
  Reread x y -> findall n x = oelem g o -> (forall a y, o = Some a -> Reread (g a) y -> yields (f y) (h a)) ->
  yields (opt_m f (xfind n y)) (option_map h o).
Proof.
  intros H Hf Hg. pose proof (Reread_findall n _ _ H) as Hy. rewrite Hf in Hy. unfold xfind.
  destruct o as [a|]; cbn [oelem] in Hy.
  - apply RereadL_cons_inv in Hy as (k & r & -> & Hk & Hr). cbn [hd_error opt_m option_map].
    eapply yields_bind; [apply Hg; [reflexivity|exact Hk]|apply yields_ret].
  - apply RereadL_nil_inv in Hy. rewrite Hy. apply yields_ret.
Qed.

Ltac kw := intros []; split; (discriminate || reflexivity).
Ltac step := eapply yields_bind.

(** ** The elements *)
Lemma rt_sau_region r y : Reread (sau_region_xml r) y -> yields (parse_sau_region y) (kept_sau_region r).
Proof.
  intros H. unfold parse_sau_region.
  step; [apply (y_attr _ (option_map bool_text (ssr_enabled r)) _ _ H); destruct r as [[] []]; reflexivity|].
  step; [instantiate (1 := ssr_enabled r); destruct (ssr_enabled r) as [[]|]; cbn; now eexists|].
  step; [apply (y_attr _ (ssr_name r) _ _ H); destruct r as [[] []]; reflexivity|].
  step; [eapply (y_req_int _ hex_of_Z (ssr_base r)); [apply hex_int|exact H|look]|].
  step; [eapply (y_req_int _ hex_of_Z (ssr_limit r)); [apply hex_int|exact H|look]|].
  step; [eapply (y_req_keyword _ (sau_access_value (ssr_access r))); [destruct r as [? ? ? ? []]; discriminate|destruct r as [? ? ? ? []]; reflexivity|exact H|look]|].
  step; [apply y_from, sau_access_value_rt|]. apply yields_ret.
Qed.
Lemma rt_sau_config c y : Reread (sau_config_xml c) y -> yields (parse_sau_config y) (kept_sau c).
Proof.
  intros H. unfold parse_sau_config.
  step; [apply (y_attr _ (option_map bool_text (ssc_enabled c)) _ _ H); destruct c as [[] []]; reflexivity|].
  step; [instantiate (1 := ssc_enabled c); destruct (ssc_enabled c) as [[]|]; cbn; now eexists|].
  step; [apply (y_attr _ (option_map protection_value (ssc_prot c)) _ _ H); destruct c as [[] []]; reflexivity|].
  step; [apply (y_findall _ _ sau_region_xml kept_sau_region (ssc_regions c) _ _ H); [look|intros; now apply rt_sau_region]|].
  step; [instantiate (1 := ssc_prot c); destruct (ssc_prot c) as [[]|]; cbn; now eexists|]. apply yields_ret.
Qed.
Lemma rt_cpu c y : scpu_rev c <> "" -> Reread (cpu_xml c) y -> yields (parse_cpu y) (kept_cpu c).
Proof.
  intros Hrev H. unfold parse_cpu.
  step; [eapply (y_req_keyword _ (cpu_value (scpu_name c))); [destruct (scpu_name c); discriminate|destruct (scpu_name c); reflexivity|exact H|look]|].
  step; [apply y_from, cpu_value_rt|].
  step; [eapply (y_req_text _ (scpu_rev c)); [exact H|look|exact Hrev]|].
  step; [eapply (y_req_keyword _ (endian_value (scpu_endian c))); [destruct (scpu_endian c); discriminate|destruct (scpu_endian c); reflexivity|exact H|look]|].
  step; [apply y_from, endian_value_rt|].
  step; [eapply (y_opt_bool _ (scpu_mpu c)); [exact H|look]|].
  step; [eapply (y_opt_bool _ (scpu_fpu c)); [exact H|look]|].
  step; [eapply (y_opt_bool _ (scpu_fpudp c)); [exact H|look]|].
  step; [eapply (y_opt_bool _ (scpu_dsp c)); [exact H|look]|].
  step; [eapply (y_opt_bool _ (scpu_icache c)); [exact H|look]|].
  step; [eapply (y_opt_bool _ (scpu_dcache c)); [exact H|look]|].
  step; [eapply (y_opt_bool _ (scpu_itcm c)); [exact H|look]|].
  step; [eapply (y_opt_bool _ (scpu_dtcm c)); [exact H|look]|].
  step; [eapply (y_opt_bool _ (scpu_vtor c)); [exact H|look]|].
  step; [eapply (y_req_int _ str_of_Z (scpu_nvic c)); [apply str_int|exact H|look]|].
  step; [eapply (y_req_keyword _ (bool_text (scpu_systick c))); [destruct (scpu_systick c); discriminate|destruct (scpu_systick c); reflexivity|exact H|look]|].
  step; [rewrite to_bool_text; apply yields_ret|].
  step; [eapply (y_opt_int _ str_of_Z (scpu_numint c)); [apply str_int|exact H|look]|].
  step; [eapply (y_opt_int _ str_of_Z (scpu_saunum c)); [apply str_int|exact H|look]|].
  step; [eapply (y_find _ _ sau_config_xml kept_sau (scpu_sau c)); [exact H|look|intros; now apply rt_sau_config]|].
  apply yields_ret.
Qed.
Lemma rt_ev v y : sev_name v <> "" -> Reread (ev_xml v) y -> yields (parse_ev y) (kept_ev v).
Proof.
  intros Hn H. unfold parse_ev.
  step; [eapply (y_req_text _ (sev_name v)); [exact H|look|exact Hn]|].
  step; [eapply (y_raw _ (sev_descr v)); [exact H|look]|].
  step; [eapply (y_opt_text _ (sev_value v)); [exact H|look]|].
  step; [eapply (y_opt_bool _ (sev_default v)); [exact H|look]|].
  apply yields_ret.
Qed.
Lemma rt_evs l ys x n : Forall (fun v => sev_name v <> "") l -> Reread x ys -> findall n x = map ev_xml l ->
  yields (mapM parse_ev (findall n ys)) (map kept_ev l).
Proof.
  intros Hl H Hf. eapply (y_findall n parse_ev ev_xml kept_ev l); [exact H|exact Hf|].
  intros a y Ha Hy. apply rt_ev; auto. rewrite Forall_forall in Hl; auto.
Qed.
Lemma rt_dai d y : Forall (fun v => sev_name v <> "") (sdai_evs d) -> Reread (dai_xml d) y -> yields (parse_dai y) (kept_dai d).
Proof.
  intros Hn H. unfold parse_dai.
  step; [eapply (y_opt_text _ (sdai_header d)); [exact H|look]|].
  step; [eapply (rt_evs (sdai_evs d)); [exact Hn|exact H|look]|]. apply yields_ret.
Qed.
Lemma rt_ab b y : Reread (ab_xml b) y -> yields (parse_ab y) b.
Proof.
  intros H. unfold parse_ab.
  step; [eapply (y_opt_int _ hex_of_Z (Some (sab_offset b))); [apply hex_int|exact H|look]|].
  step; [eapply (y_req_int _ hex_of_Z (sab_size b)); [apply hex_int|exact H|look]|].
  step; [eapply (y_req_keyword _ (ab_usage_value (sab_usage b))); [destruct (sab_usage b); discriminate|destruct (sab_usage b); reflexivity|exact H|look]|].
  step; [apply y_from, ab_usage_value_rt|].
  step; [eapply (y_keyword _ protection_value (sab_prot b)); [kw|exact H|look]|].
  step; [apply y_opt_from, protection_value_rt|]. destruct b; apply yields_ret.
Qed.
Lemma rt_interrupt i y : int_name i <> "" -> Reread (interrupt_xml i) y -> yields (parse_interrupt y) (kept_int i).
Proof.
  intros Hn H. unfold parse_interrupt.
  step; [eapply (y_req_text _ (int_name i)); [exact H|look|exact Hn]|].
  step; [eapply (y_raw _ (int_descr i)); [exact H|look]|].
  step; [eapply (y_keyword _ str_of_Z (Some (int_value i))); [intros; split; [apply str_ne|apply strip_str]|exact H|look]|].
  cbn [option_map]. step; [rewrite to_int_str; apply yields_ret|]. apply yields_ret.
Qed.
Lemma rt_wc w y : Reread (wc_xml w) y -> yields (parse_wc y) w.
Proof.
  intros H. unfold parse_wc.
  step; [eapply (y_opt_bool _ (wc_write_as_read w)); [exact H|look]|].
  step; [eapply (y_opt_bool _ (wc_use_enum w)); [exact H|look]|].
  step; [eapply (y_find "range" _ _ (fun r => r) (wc_range w)); [exact H|look|]|].
  - intros a y' _ H'. step; [eapply (y_req_int _ str_of_Z (fst a)); [apply str_int|exact H'|look]|].
    step; [eapply (y_req_int _ str_of_Z (snd a)); [apply str_int|exact H'|look]|]. destruct a; apply yields_ret.
  - destruct w as [a b [r|]]; apply yields_ret.
Qed.
Lemma rt_evc c y : Forall (fun v => sev_name v <> "") (sevc_evs c) -> Reread (evc_xml c) y -> yields (parse_evc y) (kept_evc c).
Proof.
  intros Hn H. unfold parse_evc.
  step; [apply (y_attr _ (sevc_derived c) _ _ H); destruct c as [? ? ? ? []]; reflexivity|].
  step; [eapply (y_opt_text _ (sevc_name c)); [exact H|look]|].
  step; [eapply (y_opt_text _ (sevc_header c)); [exact H|look]|].
  step; [eapply (y_keyword _ enum_usage_value (sevc_usage c)); [kw|exact H|look]|].
  step; [eapply (rt_evs (sevc_evs c)); [exact Hn|exact H|look]|].
  step; [apply y_opt_from, enum_usage_value_rt|]. apply yields_ret.
Qed.

(** the groups, for any element that contains them *)
Lemma rt_dim_group d x y : named_dim d -> Reread x y ->
  findall "dim" x = oleaf "dim" str_of_Z (sd_dim d) -> findall "dimIncrement" x = oleaf "dimIncrement" str_of_Z (sd_inc d) ->
  findall "dimIndex" x = oleaf "dimIndex" sid (sd_index d) -> findall "dimName" x = oleaf "dimName" sid (sd_name d) ->
  findall "dimArrayIndex" x = oelem dai_xml (sd_dai d) ->
  yields (parse_dim y) (kept_dim d).
Proof.
  intros Hn H H1 H2 H3 H4 H5. unfold parse_dim.
  step; [eapply (y_opt_int _ str_of_Z); [apply str_int|exact H|exact H1]|].
  step; [eapply (y_opt_int _ str_of_Z); [apply str_int|exact H|exact H2]|].
  step; [eapply y_opt_text; [exact H|exact H3]|].
  step; [eapply y_opt_text; [exact H|exact H4]|].
  step; [eapply (y_find _ _ _ kept_dai); [exact H|exact H5|]|apply yields_ret].
  intros a y' Ha Hy. apply rt_dai; auto. unfold named_dim in Hn. now rewrite Ha in Hn.
Qed.
Lemma rt_props_group p x y : Reread x y ->
  findall "size" x = oleaf "size" str_of_Z (op_size p) -> findall "access" x = oleaf "access" access_value (op_access p) ->
  findall "protection" x = oleaf "protection" protection_value (op_prot p) ->
  findall "resetValue" x = oleaf "resetValue" hex_of_Z (op_rv p) -> findall "resetMask" x = oleaf "resetMask" hex_of_Z (op_rm p) ->
  yields (parse_props y) p.
Proof.
  intros H H1 H2 H3 H4 H5. unfold parse_props.
  step; [eapply (y_opt_int _ str_of_Z); [apply str_int|exact H|exact H1]|].
  step; [eapply (y_keyword _ access_value); [kw|exact H|exact H2]|].
  step; [eapply (y_keyword _ protection_value); [kw|exact H|exact H3]|].
  step; [eapply (y_opt_int _ hex_of_Z); [apply hex_int|exact H|exact H4]|].
  step; [eapply (y_opt_int _ hex_of_Z); [apply hex_int|exact H|exact H5]|].
  step; [apply y_access|]. step; [apply y_opt_from, protection_value_rt|]. destruct p; apply yields_ret.
Qed.

Lemma map_id' {A} (l : list A) : map (fun a => a) l = l. Proof. apply map_id. Qed.

Lemma rt_field f y : named_field f -> Reread (field_xml f) y -> yields (parse_field y) (kept_field f).
Proof.
  intros (Hn & Hd & He) H. unfold parse_field.
  step; [apply (y_attr _ (sf_derived f) _ _ H); unfold xget, field_xml, oattr; cbn [xml_attrs]; destruct (sf_derived f); reflexivity|].
  step; [eapply (y_req_text _ (sf_name f)); [exact H|look|exact Hn]|].
  step; [eapply (y_raw _ (sf_descr f)); [exact H|look]|].
  step; [eapply (y_opt_int "bitOffset" str_of_Z (fst (kept_pair (sf_bit_offset f) (sf_bit_width f)))); [apply str_int|exact H|look]|].
  step; [eapply (y_opt_int "bitWidth" str_of_Z (snd (kept_pair (sf_bit_offset f) (sf_bit_width f)))); [apply str_int|exact H|look]|].
  step; [eapply (y_opt_int "lsb" str_of_Z (fst (kept_pair (sf_lsb f) (sf_msb f)))); [apply str_int|exact H|look]|].
  step; [eapply (y_opt_int "msb" str_of_Z (snd (kept_pair (sf_lsb f) (sf_msb f)))); [apply str_int|exact H|look]|].
  step; [eapply (y_opt_text _ (sf_bit_range f)); [exact H|look]|].
  step; [eapply (y_keyword _ access_value (sf_access f)); [kw|exact H|look]|].
  step; [eapply (y_keyword _ mwv_value (sf_mwv f)); [kw|exact H|look]|].
  step; [eapply (y_find _ _ wc_xml (fun w => w) (sf_wc f)); [exact H|look|intros; now apply rt_wc]|].
  step; [eapply (y_keyword _ read_action_value (sf_ra f)); [kw|exact H|look]|].
  step; [eapply (y_findall _ _ evc_xml kept_evc (sf_evcs f)); [exact H|look|]|].
  { intros a y' Ha Hy. apply rt_evc; auto. rewrite Forall_forall in He; auto. }
  step; [eapply (rt_dim_group (sf_dim f)); [exact Hd|exact H|look|look|look|look|look]|].
  step; [apply y_access|]. step; [apply y_opt_from, mwv_value_rt|]. step; [apply y_opt_from, read_action_value_rt|].
  eapply yields_eq; [apply yields_ret|]. unfold kept_field. f_equal. destruct (sf_wc f); reflexivity.
Qed.

Lemma y_section {A B} name (f : xml -> M B) (g : A -> xml) (h : A -> B) m l x y : tagged g m ->
  Reread x y -> findall name x = section name (map g l) ->
  (forall a y, In a l -> Reread (g a) y -> yields (f y) (h a)) ->
  yields (mapM f (flat_map (findall m) (findall name y))) (map h l).
Proof.
  intros Ht H Hf Hg. pose proof (Reread_findall name _ _ H) as Hy. rewrite Hf in Hy. unfold section in Hy.
  destruct l as [|a l].
  - cbn [map is_nil] in Hy. apply RereadL_nil_inv in Hy. rewrite Hy. apply yields_ret.
  - set (l' := a :: l) in *. cbn [map is_nil] in Hy. change (is_nil (map g l')) with false in Hy. cbn iota in Hy.
    apply RereadL_cons_inv in Hy as (k & r & -> & Hk & Hr). apply RereadL_nil_inv in Hr. subst r.
    cbn [flat_map]. rewrite app_nil_r. apply (y_findall m f g h l' _ _ Hk); [|exact Hg].
    unfold findall. cbn [xml_kids]. rewrite (ft_map _ _ _ _ Ht), String.eqb_refl. reflexivity.
Qed.

Lemma rt_reg r y : named_reg r -> Reread (reg_xml r) y -> yields (parse_register y) (kept_reg r).
Proof.
  intros (Hn & Hd & Hfs) H. unfold parse_register.
  step; [apply (y_attr _ (sr_derived r) _ _ H); unfold xget, reg_xml, oattr; cbn [xml_attrs]; destruct (sr_derived r); reflexivity|].
  step; [eapply (y_req_text _ (sr_name r)); [exact H|look|exact Hn]|].
  step; [eapply (y_opt_text _ (sr_display r)); [exact H|look]|].
  step; [eapply (y_raw _ (sr_descr r)); [exact H|look]|].
  step; [eapply (y_opt_text _ (sr_altgroup r)); [exact H|look]|].
  step; [eapply (y_opt_text _ (sr_altreg r)); [exact H|look]|].
  step; [eapply (y_req_int _ hex_of_Z (sr_offset r)); [apply hex_int|exact H|look]|].
  step; [eapply (y_keyword _ data_type_value (sr_dtype r)); [kw|exact H|look]|].
  step; [eapply (y_keyword _ mwv_value (sr_mwv r)); [kw|exact H|look]|].
  step; [eapply (y_find _ _ wc_xml (fun w => w) (sr_wc r)); [exact H|look|intros; now apply rt_wc]|].
  step; [eapply (y_keyword _ read_action_value (sr_ra r)); [kw|exact H|look]|].
  step; [eapply (y_section _ _ field_xml kept_field "field" (sr_fields r)); [apply t_field|exact H|look|]|].
  { intros a y' Ha Hy. apply rt_field; auto. rewrite Forall_forall in Hfs; auto. }
  step; [eapply (rt_dim_group (sr_dim r)); [exact Hd|exact H|look|look|look|look|look]|].
  step; [eapply (rt_props_group (sr_props r)); [exact H|look|look|look|look|look]|].
  step; [apply y_opt_from, data_type_value_rt|]. step; [apply y_opt_from, mwv_value_rt|]. step; [apply y_opt_from, read_action_value_rt|].
  eapply yields_eq; [apply yields_ret|]. unfold kept_reg. f_equal. destruct (sr_wc r); reflexivity.
Qed.

(** ** Registers and clusters *)
Lemma parse_rc_cluster a t ks : parse_rc (Elem "cluster" a t ks) =
  (c <- parse_cluster_with (parse_rcs ks) (Elem "cluster" a t ks) ;; ret [c]).
Proof.
  cbn [parse_rc String.eqb Ascii.eqb Bool.eqb].
  assert (H : (fix go l := match l with [] => ret [] | k :: l' => x <- parse_rc k ;; y <- go l' ;; ret (x ++ y) end) ks = parse_rcs ks).
  { induction ks as [|k ks IH]; cbn [parse_rcs]; [reflexivity|]. now rewrite IH. }
  now rewrite H.
Qed.
Lemma parse_rc_register a t ks : parse_rc (Elem "register" a t ks) = (r <- parse_register (Elem "register" a t ks) ;; ret [SReg r]).
Proof. reflexivity. Qed.
Lemma y_rcs_app l1 l2 a b : yields (parse_rcs l1) a -> yields (parse_rcs l2) b -> yields (parse_rcs (l1 ++ l2)) (a ++ b).
Proof.
  revert a. induction l1 as [|k l1 IH]; intros a H1 H2; cbn [app parse_rcs] in *.
  - destruct H1 as [w H1]. apply ret_ok in H1 as [<- _]. exact H2.
  - destruct H1 as [w H1]. apply bind_ok in H1 as (w1 & x & w2 & H3 & H4 & _).
    apply bind_ok in H4 as (w3 & x' & w4 & H5 & H6 & _). apply ret_ok in H6 as [<- _].
    step; [exists w1; exact H3|]. step; [apply (IH x'); [exists w3; exact H5|exact H2]|].
    rewrite app_assoc. apply yields_ret.
Qed.
(** elements that are neither registers nor clusters *)
Definition plain (e : xml) : bool := negb (has_tag "register" e) && negb (has_tag "cluster" e).
Lemma y_rcs_plain l ys : RereadL l ys -> forallb plain l = true -> yields (parse_rcs ys) [].
Proof.
  induction 1; cbn [forallb parse_rcs]; [intros _; apply yields_ret|].
  intros Hp. apply andb_true_iff in Hp as [H1 H2].
  apply (yields_bind _ _ []); [|step; [apply IHRereadL, H2|apply yields_ret]].
  unfold plain in H1. rewrite <- !(Reread_tag _ _ _ H) in H1. apply andb_true_iff in H1 as [H3 H4].
  apply negb_true_iff in H3, H4. destruct k' as [t a x kk|]; [|apply yields_ret].
  cbn [has_tag] in H3, H4. cbn [parse_rc]. rewrite H3, H4. apply yields_ret.
Qed.
Lemma plain_oleaf {A} n (f : A -> string) o : negb (String.eqb n "register") && negb (String.eqb n "cluster") = true -> forallb plain (oleaf n f o) = true.
Proof. intros H. destruct o; cbn [oleaf forallb]; [|reflexivity]. unfold plain, leaf. cbn [has_tag]. now rewrite H. Qed.
Lemma plain_app a b : forallb plain a = true -> forallb plain b = true -> forallb plain (a ++ b) = true.
Proof. rewrite forallb_app. now intros -> ->. Qed.
Lemma plain_dim d : forallb plain (dim_xml d) = true.
Proof. unfold dim_xml. repeat apply plain_app; try (now apply plain_oleaf). destruct (sd_dai d); reflexivity. Qed.
Lemma plain_props p : forallb plain (props_xml p) = true.
Proof. unfold props_xml. repeat apply plain_app; now apply plain_oleaf. Qed.

Lemma none_of_rcs n (l : list svd_rc) : String.eqb "register" n = false -> String.eqb "cluster" n = false -> none_of n (map rc_xml l).
Proof.
  unfold none_of. intros H1 H2. induction l as [|[r|c l'] l IH]; cbn [map filter]; [reflexivity| |].
  - change (has_tag n (rc_xml (SReg r))) with (String.eqb "register" n). now rewrite H1.
  - change (has_tag n (rc_xml (SClu c l'))) with (String.eqb "cluster" n). now rewrite H2.
Qed.

Ltac look_no ::=
  lazymatch goal with
  | |- none_of _ (map rc_xml _) => apply none_of_rcs; reflexivity
  | |- none_of _ (_ ++ _) => apply no_app; [look_no|look_no]
  | |- none_of _ [] => apply no_nil
  | |- none_of _ (leaf _ _ :: _) => apply no_leaf; [reflexivity|look_no]
  | |- none_of _ (oleaf _ _ _) => apply no_oleaf; reflexivity
  | |- none_of _ (oelem _ _) => eapply no_oelem; [tg|reflexivity]
  | |- none_of _ (map _ _) => eapply no_map; [tg|reflexivity]
  | |- none_of _ (section _ _) => apply no_section; reflexivity
  | |- none_of _ (pair_xml _ _ _ _) => apply no_pair; reflexivity
  | |- none_of _ (dim_xml _) => apply no_dim; reflexivity
  | |- none_of _ (props_xml _) => apply no_props; reflexivity
  end.

Lemma rt_rc x : named_rc x -> forall y, Reread (rc_xml x) y -> yields (parse_rc y) [kept_rc x].
Proof.
  induction x as [r|c l IH] using svd_rc_ind'; intros Hn y H.
  - inversion Hn; subst. cbn [rc_xml kept_rc] in *.
    destruct y as [t a tx ks|]; [|inversion H].
    assert (Ht : t = "register") by (pose proof (Reread_tag "register" _ _ H) as Ht; cbn in Ht; now apply String.eqb_eq in Ht).
    subst t. rewrite parse_rc_register. step; [apply (rt_reg r); auto|]. apply yields_ret.
  - inversion Hn as [|c' l' Hnm Hd Hl]; subst. cbn [rc_xml kept_rc] in *.
    destruct y as [t a tx ks|]; [|inversion H].
    assert (Ht : t = "cluster") by (pose proof (Reread_tag "cluster" _ _ H) as Ht; cbn in Ht; now apply String.eqb_eq in Ht).
    subst t. rewrite parse_rc_cluster. step; [|apply yields_ret]. unfold parse_cluster_with.
    set (y := Elem "cluster" a tx ks) in *.
    step; [apply (y_attr _ (sc_derived c) _ _ H); unfold xget, clu_xml, oattr; cbn [xml_attrs]; destruct (sc_derived c); reflexivity|].
    step; [eapply (y_req_text _ (sc_name c)); [exact H|look|exact Hnm]|].
    step; [eapply (y_raw _ (sc_descr c)); [exact H|look]|].
    step; [eapply (y_opt_text _ (sc_altclu c)); [exact H|look]|].
    step; [eapply (y_opt_text _ (sc_header c)); [exact H|look]|].
    step; [eapply (y_req_int _ hex_of_Z (sc_offset c)); [apply hex_int|exact H|look]|].
    step.
    { instantiate (1 := map kept_rc l).
      pose proof (Reread_kids _ _ H) as Hk. cbn [xml_kids clu_xml] in Hk. unfold y in Hk. cbn [xml_kids] in Hk.
      rewrite !app_assoc in Hk. apply RereadL_app_inv in Hk as (k1 & k2 & -> & Hk1 & Hk2).
      change (map kept_rc l) with ([] ++ map kept_rc l). apply y_rcs_app.
      - eapply y_rcs_plain; [exact Hk1|].
        repeat first [apply plain_dim | apply plain_props | apply plain_app]; try (now apply plain_oleaf); reflexivity.
      - clear - IH Hl Hk2. revert k2 Hk2. induction l as [|x l IHl]; intros k2 H; cbn [map] in *.
        + apply RereadL_nil_inv in H. subst. apply yields_ret.
        + apply RereadL_cons_inv in H as (y & r & -> & H1 & H2). inversion Hl; subst. inversion IH; subst.
          cbn [parse_rcs]. step; [apply H5; auto|]. step; [apply IHl; auto|]. apply yields_ret. }
    step; [eapply (rt_dim_group (sc_dim c)); [exact Hd|exact H|look|look|look|look|look]|].
    step; [eapply (rt_props_group (sc_props c)); [exact H|look|look|look|look|look]|].
    apply yields_ret.
Qed.

Lemma y_rcs l ys : Forall named_rc l -> RereadL (map rc_xml l) ys -> yields (parse_rcs ys) (map kept_rc l).
Proof.
  revert ys. induction l as [|x l IH]; intros ys Hl H; cbn [map] in *.
  - apply RereadL_nil_inv in H. subst. apply yields_ret.
  - apply RereadL_cons_inv in H as (y & r & -> & H1 & H2). inversion Hl; subst. cbn [parse_rcs].
    step; [apply (rt_rc x); auto|]. step; [apply IH; auto|]. apply yields_ret.
Qed.

Lemma rt_per p y : named_per p -> Reread (per_xml p) y -> yields (parse_peripheral y) (kept_per p).
Proof.
  intros (Hn & Hd & Hi & Hr) H. unfold parse_peripheral.
  step; [apply (y_attr _ (sp_derived p) _ _ H); unfold xget, per_xml, oattr; cbn [xml_attrs]; destruct (sp_derived p); reflexivity|].
  step; [eapply (y_req_text _ (sp_name p)); [exact H|look|exact Hn]|].
  step; [eapply (y_opt_text _ (sp_version p)); [exact H|look]|].
  step; [eapply (y_raw _ (sp_descr p)); [exact H|look]|].
  step; [eapply (y_opt_text _ (sp_altper p)); [exact H|look]|].
  step; [eapply (y_opt_text _ (sp_group p)); [exact H|look]|].
  step; [eapply (y_opt_text _ (sp_prepend p)); [exact H|look]|].
  step; [eapply (y_opt_text _ (sp_append p)); [exact H|look]|].
  step; [eapply (y_opt_text _ (sp_header p)); [exact H|look]|].
  step; [eapply (y_raw _ (sp_disable p)); [exact H|look]|].
  step; [eapply (y_req_int _ hex_of_Z (sp_base p)); [apply hex_int|exact H|look]|].
  step; [eapply (y_findall _ _ ab_xml (fun b => b) (sp_abs p)); [exact H|look|intros; now apply rt_ab]|].
  step; [eapply (y_findall _ _ interrupt_xml kept_int (sp_ints p)); [exact H|look|]|].
  { intros a y' Ha Hy. apply rt_interrupt; auto. rewrite Forall_forall in Hi; auto. }
  step.
  { instantiate (1 := map kept_rc (sp_rcs p)).
    assert (Hf : findall "registers" (per_xml p) = section "registers" (map rc_xml (sp_rcs p))) by look.
    pose proof (Reread_findall "registers" _ _ H) as Hy. rewrite Hf in Hy. unfold section in Hy.
    destruct (sp_rcs p) as [|x l] eqn:Hl.
    - cbn [map is_nil] in Hy. apply RereadL_nil_inv in Hy. rewrite Hy. apply yields_ret.
    - rewrite <- Hl in *. replace (is_nil (map rc_xml (sp_rcs p))) with false in Hy by (rewrite Hl; reflexivity).
      apply RereadL_cons_inv in Hy as (k & r & -> & Hk & Hrr). apply RereadL_nil_inv in Hrr. subst r.
      cbn [flat_map]. rewrite app_nil_r. apply y_rcs; auto. exact (Reread_kids _ _ Hk). }
  step; [eapply (rt_dim_group (sp_dim p)); [exact Hd|exact H|look|look|look|look|look]|].
  step; [eapply (rt_props_group (sp_props p)); [exact H|look|look|look|look|look]|].
  eapply yields_eq; [apply yields_ret|]. unfold kept_per. f_equal. apply map_id.
Qed.

Lemma rt_device d doc : named_device d -> RereadDoc (device_xml d) doc -> yields (parse_device doc) (kept_device d).
Proof.
  intros (Hn & Hv & Hc & Hp0 & Hp) [Hns H]. unfold parse_device. rewrite Hns. unfold device_xml in H. cbn [doc_root doc_nsmap device_xml] in *.
  set (y := doc_root doc) in *.
  step.
  { instantiate (1 := strip (sdv_xs d)). unfold parse_schema_location. cbn [find fst snd String.eqb Ascii.eqb Bool.eqb].
    step; [apply (y_attr _ (Some (sdv_xs d)) _ _ H)|apply yields_ret].
    unfold xget. cbn [xml_attrs find fst snd]. now rewrite String.eqb_refl. }
  step.
  { unfold req_attr. step; [apply (y_attr _ (Some (sdv_schema d)) _ _ H); reflexivity|]. apply yields_ret. }
  step; [eapply (y_opt_text _ (sdv_vendor d)); [exact H|look]|].
  step; [eapply (y_opt_text _ (sdv_vendor_id d)); [exact H|look]|].
  step; [eapply (y_req_text _ (sdv_name d)); [exact H|look|exact Hn]|].
  step; [eapply (y_opt_text _ (sdv_series d)); [exact H|look]|].
  step; [eapply (y_req_text _ (sdv_version d)); [exact H|look|exact Hv]|].
  step; [eapply (y_raw _ (Some (sdv_descr d))); [exact H|look]|].
  step.
  { instantiate (1 := sdv_descr d). cbn [kept_raw]. destruct (String.eqb_spec (sdv_descr d) "") as [->|_]; [now eexists|apply yields_ret]. }
  step; [eapply (y_raw _ (sdv_license d)); [exact H|look]|].
  step; [eapply (y_find _ _ cpu_xml kept_cpu (sdv_cpu d)); [exact H|look|]|].
  { intros c y' Hcc Hy. apply rt_cpu; auto. }
  step; [eapply (y_opt_text _ (sdv_hsf d)); [exact H|look]|].
  step; [eapply (y_opt_text _ (sdv_hdp d)); [exact H|look]|].
  step; [eapply (y_req_int _ str_of_Z (sdv_aub d)); [apply str_int|exact H|look]|].
  step; [eapply (y_req_int _ str_of_Z (sdv_width d)); [apply str_int|exact H|look]|].
  step; [eapply (rt_props_group (sdv_props d)); [exact H|look|look|look|look|look]|].
  step.
  { instantiate (1 := map kept_per (sdv_periphs d)). unfold parse_peripherals, xfind.
    match type of H with Reread ?x _ =>
      assert (Hf : findall "peripherals" x = section "peripherals" (map per_xml (sdv_periphs d))) by look end.
    pose proof (Reread_findall "peripherals" _ _ H) as Hy. rewrite Hf in Hy. unfold section in Hy.
    replace (is_nil (map per_xml (sdv_periphs d))) with false in Hy by (destruct (sdv_periphs d); [congruence|reflexivity]).
    apply RereadL_cons_inv in Hy as (k & r & Hyk & Hk & _). rewrite Hyk. cbn [hd_error].
    eapply (y_findall "peripheral" _ per_xml kept_per); [exact Hk| |].
    - unfold findall. cbn [xml_kids]. apply fo_map. tg.
    - intros a y' Ha Hy. apply rt_per; auto. rewrite Forall_forall in Hp; auto. }
  apply yields_ret.
Qed.
