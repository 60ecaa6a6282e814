(** * PropsLink: the back pointers of the parsed model (C63) *)
From Coq Require Import Permutation.
From Verif Require Import Base PyStr PyInt Types FinalModel ResolveModel ProcessModel ConvertModel SpecProcess Samples SchemaWrite LinkModel SpecLink LinkFacts.
Local Open Scope nat_scope.

Ltac step B :=
  lazymatch goal with
  | S : So ?o ?lo ?h0 ?h ?l |- _ =>
      let h' := fresh "h" in let cs := fresh "cs" in let E := fresh "E" in let L := fresh "L" in let S' := fresh "S" in
      destruct (so_step o lo h0 h l _ _ S B) as (h' & cs & E & L & S'); rewrite (hbind_eq _ _ _ _ _ E); clear S E
  end.
Ltac lists := cbn [app]; rewrite ?map_app; repeat (rewrite fst_combine by assumption); repeat (rewrite snd_combine by assumption);
  cbn [map]; rewrite ?app_nil_r, <- ?app_assoc; reflexivity.
(** the adoption of [ts]; [l] in the order of the class *)
Ltac own l ts :=
  lazymatch goal with
  | S : So ?o ?lo ?h0 ?h ?l' |- exists h' i, hbind (new ?t ?parts) _ _ = _ /\ _ =>
      let EN := fresh "EN" in let EA := fresh "EA" in let LN := fresh "LN" in let XN := fresh "XN" in let TN := fresh "TN" in let hn := fresh "hn" in
      destruct (so_own o lo h0 h l l' t parts ts S) as (hn & EN & EA & LN & XN & TN);
      [ try solve [apply Permutation_refl] | try solve [lists] | | |
        rewrite (hbind_eq _ _ _ _ _ EN); repeat (rewrite (hbind_eq _ _ _ _ _ (adopt_eq _ _ _)));
        exists hn, (length h); split; [unfold hret; rewrite ?adopted_app, ?app_assoc; rewrite ?app_assoc in EA; rewrite EA; reflexivity|];
        split; [exact LN|]; split; [exact XN|];
        match goal with |- Tree _ _ _ _ _ ?x => replace x with (Node t (map snd l)); [exact TN|] end ]
  end.
Lemma every_part (l : list (nat * tree)) ts : ts = map fst l -> forall c x, In (c, x) l -> (In c ts <-> nobody (root x) = false).
Proof. intros -> c x Hin. split; [reflexivity|]. intros _. now apply (in_map fst) in Hin. Qed.
Ltac own_all ts :=
  lazymatch goal with
  | S : So ?o ?lo ?h0 ?h ?l' |- _ =>
      let HT := fresh "HT" in assert (HT : ts = map fst l') by lists;
      own l' ts; [rewrite <- HT; auto|apply every_part, HT|]
  end.

Lemma b_leaf o t : Builds o (new t []) (Node t []).
Proof.
  intros h. destruct (so_own o _ _ _ [] [] t [] [] (so_start o h)) as (h' & EN & EA & LN & XN & TN); [constructor|reflexivity|intros j []|intros c x []|].
  cbn in EA. exists h', (length h). split; [rewrite EN, EA; reflexivity|]. auto.
Qed.
Lemma b_dim d : Builds nobody (parse_dim_array d) (dim_tree d).
Proof.
  intros h. unfold parse_dim_array. assert (S := so_start nobody h).
  step (builds_each nobody parse_value value_tree (sdai_evs d) (fun v _ => b_leaf nobody (TValue v))). own_all cs. unfold dim_tree. f_equal. lists.
Qed.
Lemma b_enums c : Builds nobody (parse_enums c) (enums_tree c).
Proof.
  intros h. unfold parse_enums. assert (S := so_start nobody h).
  step (builds_each nobody parse_value value_tree (sevc_evs c) (fun v _ => b_leaf nobody (TValue v))). own_all cs. unfold enums_tree. f_equal. lists.
Qed.
Lemma b_field f : Builds nobody (parse_field_obj f) (field_tree f).
Proof.
  intros h. unfold parse_field_obj. assert (S := so_start nobody h).
  step (builds_maybe nobody parse_constraint constraint_tree (sf_wc f) (fun w _ => b_leaf nobody (TConstraint w))).
  step (builds_each nobody parse_enums enums_tree (sf_evcs f) (fun c _ => b_enums c)).
  step (builds_maybe nobody parse_dim_array dim_tree (sd_dai (sf_dim f)) (fun d _ => b_dim d)).
  own_all (cs ++ cs0 ++ cs1). unfold field_tree. f_equal. lists.
Qed.
Lemma b_register r : Builds nobody (parse_register_obj r) (register_tree r).
Proof.
  intros h. unfold parse_register_obj. assert (S := so_start nobody h).
  step (builds_maybe nobody parse_constraint constraint_tree (sr_wc r) (fun w _ => b_leaf nobody (TConstraint w))).
  step (builds_each nobody parse_field_obj field_tree (sr_fields r) (fun f _ => b_field f)).
  step (builds_maybe nobody parse_dim_array dim_tree (sd_dai (sr_dim r)) (fun d _ => b_dim d)).
  own_all (cs ++ cs0 ++ cs1). unfold register_tree. f_equal. lists.
Qed.
Lemma b_rc x : Builds nobody (parse_rc_obj x) (rc_tree x).
Proof.
  induction x as [r|c l IH] using svd_rc_ind2; [apply b_register|]. rewrite Forall_forall in IH.
  intros h. cbn [parse_rc_obj rc_tree]. change (fix go l := match l with [] => hret [] | y :: l' => i <~ parse_rc_obj y ;; is <~ go l' ;; hret (i :: is) end) with (each parse_rc_obj).
  assert (S := so_start nobody h).
  step (builds_each nobody parse_rc_obj rc_tree l IH).
  step (builds_maybe nobody parse_dim_array dim_tree (sd_dai (sc_dim c)) (fun d _ => b_dim d)).
  own_all (cs ++ cs0). f_equal. lists.
Qed.
Lemma b_peripheral p : Builds nobody (parse_peripheral_obj p) (peripheral_tree p).
Proof.
  intros h. unfold parse_peripheral_obj. assert (S := so_start nobody h).
  step (builds_each nobody parse_block (fun b => Node (TBlock b) []) (sp_abs p) (fun b _ => b_leaf nobody (TBlock b))).
  step (builds_each nobody parse_interrupt_obj (fun i => Node (TInterrupt i) []) (sp_ints p) (fun b _ => b_leaf nobody (TInterrupt b))).
  step (builds_each nobody parse_rc_obj rc_tree (sp_rcs p) (fun x _ => b_rc x)).
  step (builds_maybe nobody parse_dim_array dim_tree (sd_dai (sp_dim p)) (fun d _ => b_dim d)).
  own_all (cs ++ cs0 ++ cs1 ++ cs2). unfold peripheral_tree. f_equal. lists.
Qed.
Lemma b_sau c : Builds nobody (parse_sau c) (sau_tree c).
Proof.
  intros h. unfold parse_sau. assert (S := so_start nobody h).
  step (builds_each nobody parse_region (fun r => Node (TRegion r) []) (ssc_regions c) (fun b _ => b_leaf nobody (TRegion b))).
  own_all cs. unfold sau_tree. f_equal. lists.
Qed.
Lemma b_cpu c : Builds nobody (parse_cpu_obj c) (cpu_tree c).
Proof.
  intros h. unfold parse_cpu_obj. assert (S := so_start nobody h).
  step (builds_maybe nobody parse_sau sau_tree (scpu_sau c) (fun b _ => b_sau b)).
  own_all cs. unfold cpu_tree. f_equal. lists.
Qed.
Lemma b_device d : Builds nobody (parse_device_obj d) (device_tree d).
Proof.
  intros h. unfold parse_device_obj. assert (S := so_start nobody h).
  step (builds_maybe nobody parse_cpu_obj cpu_tree (sdv_cpu d) (fun b _ => b_cpu b)).
  step (builds_each nobody parse_peripheral_obj peripheral_tree (sdv_periphs d) (fun x _ => b_peripheral x)).
  own_all (cs ++ cs0). unfold device_tree. f_equal. lists.
Qed.

(** ** convert *)
Lemma in_combine_snd {A B} (a : list A) (b : list B) c x : In (c, x) (combine a b) -> In x b.
Proof. apply in_combine_r. Qed.
Lemma adopted_part (l : list (nat * tree)) ts : ts = map fst l -> (forall c x, In (c, x) l -> constraints (root x) = false) ->
  forall c x, In (c, x) l -> (In c ts <-> constraints (root x) = false).
Proof. intros -> HN c x Hin. split; intros _; [exact (HN c x Hin)|]. now apply (in_map fst) in Hin. Qed.
Lemma some_parts (l1 l2 : list (nat * tree)) ts : ts = map fst l1 -> NoDup (map fst (l1 ++ l2)) -> (forall c x, In (c, x) l1 -> constraints (root x) = false) ->
  (forall c x, In (c, x) l2 -> constraints (root x) = true) -> forall c x, In (c, x) (l2 ++ l1) -> (In c ts <-> constraints (root x) = false).
Proof.
  intros -> HD H1 H2 c x Hin. apply in_app_iff in Hin as [Hin|Hin].
  - rewrite (H2 _ _ Hin). split; [|discriminate]. intros Hc. exfalso. rewrite map_app in HD. clear H1 H2.
    apply (in_map fst) in Hin. cbn in Hin. apply in_split in Hc as (a & b & Hab). rewrite Hab in HD. rewrite <- app_assoc in HD. cbn [app] in HD.
    apply NoDup_remove_2 in HD. apply HD. apply in_or_app. right. apply in_or_app. now right.
  - split; intros _; [exact (H1 _ _ Hin)|]. now apply (in_map fst) in Hin.
Qed.
Lemma plain_parts {A} (cs : list nat) (g : A -> tree) l : (forall a, constraints (root (g a)) = false) ->
  forall c x, In (c, x) (combine cs (map g l)) -> constraints (root x) = false.
Proof. intros H c x Hin. apply in_combine_snd, in_map_iff in Hin as (a & <- & _). apply H. Qed.
Lemma plain_option {A} (cs : list nat) (g : A -> tree) o : (forall a, constraints (root (g a)) = false) ->
  forall c x, In (c, x) (combine cs (of_option g o)) -> constraints (root x) = false.
Proof. intros H c x Hin. apply in_combine_snd in Hin. destruct o as [a|]; cbn in Hin; [|contradiction]. destruct Hin as [<-|[]]. apply H. Qed.
Lemma orphan_option (cs : list nat) o : forall c x, In (c, x) (combine cs (of_option constraint_tree o)) -> constraints (root x) = true.
Proof. intros c x Hin. apply in_combine_snd in Hin. destruct o as [a|]; cbn in Hin; [|contradiction]. destruct Hin as [<-|[]]. reflexivity. Qed.
Lemma app_plain (P : nat -> tree -> Prop) (l1 l2 : list (nat * tree)) : (forall c x, In (c, x) l1 -> P c x) -> (forall c x, In (c, x) l2 -> P c x) ->
  forall c x, In (c, x) (l1 ++ l2) -> P c x.
Proof. intros H1 H2 c x Hin. apply in_app_iff in Hin as [Hin|Hin]; auto. Qed.
Ltac plains := cbn [app]; repeat (apply (app_plain (fun _ x => constraints (root x) = false))); try (intros ? ? []);
  first [apply plain_parts | apply plain_option]; intros a; try reflexivity.
(** all parts are adopted, in the order of construction *)
Ltac own_same ts :=
  lazymatch goal with
  | S : So ?o ?lo ?h0 ?h ?l' |- _ =>
      let HT := fresh "HT" in assert (HT : ts = map fst l') by lists;
      own l' ts; [rewrite <- HT; auto | apply adopted_part; [exact HT|plains] | ]
  end.
(** the second group built comes first in the class; only the first is adopted *)
Lemma in_first {A B : list (nat * tree)} ts : ts = map fst A -> forall j, In j ts -> In j (map fst (B ++ A)).
Proof. intros -> j Hj. rewrite map_app. apply in_or_app. now right. Qed.
Ltac own_swap ts :=
  lazymatch goal with
  | S : So ?o ?lo ?h0 ?h (([] ++ ?A) ++ ?B) |- _ =>
      let HT := fresh "HT" in assert (HT : ts = map fst A) by lists;
      let HD := fresh "HD" in assert (HD : NoDup (map fst (A ++ B))) by (exact (chain_nodup o _ _ _ _ _ (proj2 (proj2 S))));
      own (B ++ A) ts; [apply Permutation_app_comm | exact (in_first ts HT) | apply (some_parts A B ts HT HD); [plains|apply orphan_option] | ]
  end.
Lemma no_dim_tree : of_option dim_tree (sd_dai no_dim) = [].
Proof. reflexivity. Qed.

Lemma cb_enums c : Builds constraints (convert_enums c) (enums_tree (conv_evc c)).
Proof.
  intros h. unfold convert_enums. assert (S := so_start constraints h).
  step (builds_each constraints convert_value (fun v => value_tree (conv_ev v)) (evc_evs c) (fun v _ => b_leaf constraints (TValue (conv_ev v)))).
  own_same cs. unfold enums_tree, conv_evc. cbn [sevc_evs]. rewrite map_map. f_equal. lists.
Qed.
Lemma cb_field f : Builds constraints (convert_field f) (field_tree (conv_field f)).
Proof.
  intros h. unfold convert_field. assert (S := so_start constraints h).
  step (builds_each constraints convert_enums (fun c => enums_tree (conv_evc c)) (f_evcs f) (fun c _ => cb_enums c)).
  step (builds_maybe constraints convert_constraint constraint_tree (fb_wc (f_b f)) (fun w _ => b_leaf constraints (TConstraint w))).
  own_swap cs. unfold field_tree, conv_field. cbn [sf_wc sf_evcs sf_dim]. rewrite no_dim_tree, map_map. f_equal. lists.
Qed.
Lemma cb_register r : Builds constraints (convert_register r) (register_tree (conv_reg r)).
Proof.
  intros h. unfold convert_register. assert (S := so_start constraints h).
  step (builds_each constraints convert_field (fun c => field_tree (conv_field c)) (r_fields r) (fun c _ => cb_field c)).
  step (builds_maybe constraints convert_constraint constraint_tree (rb_wc (r_b r)) (fun w _ => b_leaf constraints (TConstraint w))).
  own_swap cs. unfold register_tree, conv_reg. cbn [sr_wc sr_fields sr_dim]. rewrite no_dim_tree, map_map. f_equal. lists.
Qed.
Fixpoint rc_ind2 (P : rc -> Prop) (Hr : forall r, P (Reg r)) (Hc : forall c l, Forall P l -> P (Clu c l)) (x : rc) : P x :=
  match x with
  | Reg r => Hr r
  | Clu c l => Hc c l ((fix go l := match l return Forall P l with [] => Forall_nil P | y :: l' => Forall_cons y (rc_ind2 P Hr Hc y) (go l') end) l)
  end.
Lemma rc_plain a : constraints (root (rc_tree (conv_rc a))) = false.
Proof. destruct a; reflexivity. Qed.
Lemma cb_rc x : Builds constraints (convert_rc x) (rc_tree (conv_rc x)).
Proof.
  induction x as [r|c l IH] using rc_ind2; [apply cb_register|]. rewrite Forall_forall in IH.
  intros h. cbn [convert_rc conv_rc rc_tree]. change (fix go l := match l with [] => hret [] | y :: l' => i <~ convert_rc y ;; is <~ go l' ;; hret (i :: is) end) with (each convert_rc).
  assert (S := so_start constraints h).
  step (builds_each constraints convert_rc (fun x => rc_tree (conv_rc x)) l IH).
  own_same cs; [apply rc_plain|]. unfold conv_clu. cbn [sc_dim]. rewrite no_dim_tree, map_map. f_equal. lists.
Qed.
Lemma cb_peripheral p : Builds constraints (convert_peripheral p) (peripheral_tree (conv_per p)).
Proof.
  intros h. unfold convert_peripheral. assert (S := so_start constraints h).
  step (builds_each constraints convert_block (fun b => Node (TBlock (conv_ab b)) []) (pb_abs (pr_b p)) (fun b _ => b_leaf constraints (TBlock (conv_ab b)))).
  step (builds_each constraints convert_interrupt (fun i => Node (TInterrupt i) []) (pb_ints (pr_b p)) (fun b _ => b_leaf constraints (TInterrupt b))).
  step (builds_each constraints convert_rc (fun x => rc_tree (conv_rc x)) (pr_rcs p) (fun x _ => cb_rc x)).
  own_same (cs ++ cs0 ++ cs1); [apply rc_plain|]. unfold peripheral_tree, conv_per. cbn [sp_abs sp_ints sp_rcs sp_dim]. rewrite no_dim_tree, !map_map. f_equal. lists.
Qed.
Lemma cb_sau c : Builds constraints (convert_sau c) (sau_tree (conv_sau_config c)).
Proof.
  intros h. unfold convert_sau. assert (S := so_start constraints h).
  step (builds_each constraints convert_region (fun r => Node (TRegion (conv_sau_region r)) []) (sauc_regions c) (fun b _ => b_leaf constraints (TRegion (conv_sau_region b)))).
  own_same cs. unfold sau_tree, conv_sau_config. cbn [ssc_regions]. rewrite map_map. f_equal. lists.
Qed.
Lemma option_tree {A B} (f : A -> B) (g : B -> tree) o : of_option g (option_map f o) = of_option (fun a => g (f a)) o.
Proof. destruct o; reflexivity. Qed.
Lemma cb_cpu c : Builds constraints (convert_cpu c) (cpu_tree (conv_cpu c)).
Proof.
  intros h. unfold convert_cpu. assert (S := so_start constraints h).
  step (builds_maybe constraints convert_sau (fun c => sau_tree (conv_sau_config c)) (cpu_sau c) (fun b _ => cb_sau b)).
  own_same cs. unfold cpu_tree, conv_cpu. cbn [scpu_sau]. rewrite option_tree. f_equal. lists.
Qed.
Lemma cb_device d : Builds constraints (convert_device d) (device_tree (conv_device d)).
Proof.
  intros h. unfold convert_device. assert (S := so_start constraints h).
  step (builds_each constraints convert_peripheral (fun x => peripheral_tree (conv_per x)) (dv_periphs d) (fun x _ => cb_peripheral x)).
  step (builds_maybe constraints convert_cpu (fun c => cpu_tree (conv_cpu c)) (db_cpu (dv_b d)) (fun b _ => cb_cpu b)).
  lazymatch goal with
  | S : So ?o ?lo ?h0 ?h (([] ++ ?A) ++ ?B) |- _ =>
      assert (HT : cs0 ++ cs = map fst (B ++ A)) by lists;
      own (B ++ A) (cs0 ++ cs); [apply Permutation_app_comm | rewrite <- HT; auto | apply adopted_part; [exact HT|plains] | ]
  end.
  unfold device_tree, conv_device. cbn [sdv_cpu sdv_periphs]. rewrite option_tree, map_map. f_equal. lists.
Qed.

(** ** the theorems *)
Lemma builds_stands o m x h h' i : Builds o m x -> m h = (h', i) -> Stands o h' None i x /\ (forall j, j < length h -> nth_error h' j = nth_error h j).
Proof.
  intros HB E. destruct (HB h) as (h1 & i1 & E1 & _ & HX & HT). rewrite E in E1. injection E1 as <- <-. split; [|exact HX].
  exact (proj1 (tree_stands o h') _ _ _ _ HT).
Qed.
Lemma all_stand_part o h i cs xs c : AllStand o h i cs xs -> In c cs -> exists x, Stands o h (if o (root x) then None else Some i) c x.
Proof. revert xs. induction cs as [|c' cs IH]; intros xs HA Hin; [contradiction|]. inversion HA; subst. destruct Hin as [->|Hin]; eauto. Qed.
Lemma stands_below o h i j : Below h i j -> forall p x, Stands o h p i x -> exists p' x', Stands o h p' j x'.
Proof.
  induction 1 as [|j ob c HB IH Hn Hin]; intros p x HS; [eauto|]. destruct (IH _ _ HS) as (p' & x' & HS'). inversion HS' as [p2 i2 t cs xs Hn' _ HA]; subst.
  rewrite Hn in Hn'. injection Hn' as ->. destruct (all_stand_part _ _ _ _ _ _ HA Hin) as (y & HY). eauto.
Qed.
Lemma stands_parent o h p i x j ob c : Stands o h p i x -> Below h i j -> nth_error h j = Some ob -> In c (o_parts ob) ->
  exists ob', nth_error h c = Some ob' /\ o_parent ob' = if o (o_thing ob') then None else Some j.
Proof.
  intros HS HB Hn Hin. destruct (stands_below o _ _ _ HB _ _ HS) as (p' & x' & HS'). inversion HS' as [p2 i2 t cs xs Hn' _ HA]; subst.
  rewrite Hn in Hn'. injection Hn' as ->. destruct (all_stand_part _ _ _ _ _ _ HA Hin) as (y & HY).
  inversion HY as [p3 i3 t' cs' xs' Hn'' _ _]; subst. exists (mk_obj t' (if o t' then None else Some j) cs'). split; [exact Hn''|reflexivity].
Qed.

(** C63: the model returned by the parser is a tree of different objects, one for everything that was read, and every object names the object it is
    a part of as its parent; the model of another description, parsed before, is left alone *)
Theorem C63_parsed : forall d h h' i, parse_device_obj d h = (h', i) ->
  Stands nobody h' None i (device_tree d) /\ (forall j, j < length h -> nth_error h' j = nth_error h j).
Proof. intros d h h' i E. exact (builds_stands nobody _ _ _ _ _ (b_device d) E). Qed.
Theorem C63_parents : forall d h h' i j o c, parse_device_obj d h = (h', i) -> Below h' i j -> nth_error h' j = Some o -> In c (o_parts o) ->
  exists o', nth_error h' c = Some o' /\ o_parent o' = Some j.
Proof. intros d h h' i j o c E HB Hn Hin. exact (stands_parent nobody _ _ _ _ _ _ _ (proj1 (C63_parsed _ _ _ _ E)) HB Hn Hin). Qed.
(** no object is a part of two objects, and the root is a part of none *)
Theorem C63_one_owner : forall d h h' i j j' o o' c, parse_device_obj d h = (h', i) -> Below h' i j -> Below h' i j' ->
  nth_error h' j = Some o -> nth_error h' j' = Some o' -> In c (o_parts o) -> In c (o_parts o') -> j = j' /\ c <> i.
Proof.
  intros d h h' i j j' o o' c E HB HB' Hn Hn' Hin Hin'. destruct (C63_parents _ _ _ _ _ _ _ E HB Hn Hin) as (x & Hx & Px).
  destruct (C63_parents _ _ _ _ _ _ _ E HB' Hn' Hin') as (x' & Hx' & Px'). rewrite Hx in Hx'. injection Hx' as <-. rewrite Px in Px'.
  injection Px' as ->. split; [reflexivity|]. intros ->. destruct (C63_parsed _ _ _ _ E) as [HS _]. inversion HS as [p t cs xs y Hi _ _]; subst.
  rewrite Hx in Hi. injection Hi as ->. discriminate.
Qed.

(** the model converted from a processed device is such a tree too, but its write constraints have no parent *)
Theorem C63_converted : forall dev h h' i, convert_device dev h = (h', i) ->
  Stands constraints h' None i (device_tree (conv_device dev)) /\ (forall j, j < length h -> nth_error h' j = nth_error h j).
Proof. intros d h h' i E. exact (builds_stands constraints _ _ _ _ _ (cb_device d) E). Qed.
Theorem C63_converted_parents : forall dev h h' i j o c, convert_device dev h = (h', i) -> Below h' i j -> nth_error h' j = Some o -> In c (o_parts o) ->
  exists o', nth_error h' c = Some o' /\ o_parent o' = match o_thing o' with TConstraint _ => None | _ => Some j end.
Proof.
  intros d h h' i j o c E HB Hn Hin. destruct (stands_parent constraints _ _ _ _ _ _ _ (proj1 (C63_converted _ _ _ _ E)) HB Hn Hin) as (o' & Hn' & HP).
  exists o'. split; [exact Hn'|]. rewrite HP. now destruct (o_thing o').
Qed.

(** FINDING: util/process_parse_model_convert.py:143 announces that the parent of a write constraint is "set by parent field or register", but
    neither :165-189 nor :192-221 sets it; the parsed model from which the device was processed does have it (C63_parents) *)
Definition link_sample : svd_device :=
  s_dev [ s_per "P" 4096 [ s_reg "R" 0
    [ mk_sfield nodim "F" None None None (Some 0%Z) (Some 3%Z) None None None (Some (mk_wc None None (Some (1, 9)%Z))) None
        [s_evc None [s_ev "on" "1"] None] None ] None None ] None None ].
Notation link_result := (process_device 20 link_sample) (only parsing).
Notation link_store := (convert_device (the_device (process_device 20 link_sample)) []) (only parsing).
Theorem C63_constraint_refuted : exists d ws dev, Processes d ws dev /\
  let '(h, i) := convert_device dev [] in
  exists j c o w, Below h i j /\ nth_error h j = Some o /\ In c (o_parts o) /\ nth_error h c = Some (mk_obj (TConstraint w) None []).
Proof.
  exists link_sample, (fst link_result), (the_device link_result). split; [exists 20%nat; unfold the_device; vm_compute; reflexivity|].
  destruct link_store as [h i] eqn:E. vm_compute in E. injection E as <- <-.
  eexists 4, 3, _, _. split; [|split; [reflexivity|split; [left; reflexivity|reflexivity]]].
  eapply below_part; [eapply below_part; [eapply below_part; [apply below_self|reflexivity|left; reflexivity]|reflexivity|right; left; reflexivity]|reflexivity|left; reflexivity].
Qed.

(** the parsed device: number, kind and parent of the objects *)
Definition kind_of (t : thing) : string :=
  match t with TDevice _ => "device" | TPeripheral _ => "peripheral" | TBlock _ => "block" | TRegister _ => "register" | TField _ => "field"
             | TEnums _ => "enums" | TValue _ => "value" | TConstraint _ => "constraint" | _ => "other" end.
Example C63_sample : map (fun o => (kind_of (o_thing o), o_parent o, o_parts o)) (fst (parse_device_obj link_sample [])) =
  [("block", Some 6, []); ("constraint", Some 4, []); ("value", Some 3, []); ("enums", Some 4, [2]); ("field", Some 5, [1; 3]);
   ("register", Some 6, [4]); ("peripheral", Some 7, [0; 5]); ("device", None, [6])].
Proof. vm_compute. reflexivity. Qed.
