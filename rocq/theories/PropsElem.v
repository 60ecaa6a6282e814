(** * PropsElem: C09, C10, C39: single elements. *)
From Verif Require Import Base PyStr PyInt Types DimModel EnumModel ElemModel SpecDim SpecElem DimFacts ElemFacts.

(** ** C09 *)
(** the field is accepted with the bits [lsb..msb] exactly if its description denotes these bits (see [Bits]: bitRange wins over
    lsb/msb, which wins over bitOffset/bitWidth; missing halves come from the base) *)
Theorem C09_field_bits : forall f base name m l,
  (exists ws g, process_field 0 name f base = (ws, Ok g) /\ fb_msb (if_b g) = m /\ fb_lsb (if_b g) = l) <->
  Bits f (option_map (fun b => (fb_msb (if_b b), fb_lsb (if_b b))) base) m l.
Proof.
  intros f base name m l.
  assert (Hb : option_map base_bits (option_map if_b base) = option_map (fun b => (fb_msb (if_b b), fb_lsb (if_b b))) base) by (destruct base; reflexivity).
  rewrite <- Hb, <- field_bits_spec. split.
  - intros (ws & g & H & Hm1 & Hl1). unfold process_field in H. minv. destruct a as [m' l']. cbn [fst snd if_b fb_msb fb_lsb] in *.
    exists ws0. assert (E : forall x o, dim_shift x o 0 = x) by (intros x [i|]; cbn; lia). now rewrite !E.
  - intros [ws H]. unfold process_field. eexists. eexists. rewrite H. cbn [bind]. split; [reflexivity|]. cbn [if_b fb_msb fb_lsb fst snd].
    assert (E : forall x o, dim_shift x o 0 = x) by (intros x [i|]; cbn; lia). now rewrite !E.
Qed.

(** no usable notation: ProcessException *)
Theorem C09_no_bits_rejected : forall f base name k,
  (forall m l, ~ Bits f (option_map (fun b => (fb_msb (if_b b), fb_lsb (if_b b))) base) m l) ->
  exists ws e, process_field k name f base = (ws, Err e) /\ ex_class e = ProcessException.
Proof.
  intros f base name k H. destruct (field_bits_reject f (option_map if_b base)) as (ws & e & He & Hc).
  - intros m l Hx. apply (H m l). destruct base; exact Hx.
  - exists ws, e. split; [|exact Hc]. unfold process_field. now rewrite He.
Qed.

(** the field description with other bit attributes *)
Definition with_bits (f : svd_field) (off width lsb msb : option Z) (range : option string) : svd_field :=
  mk_sfield (sf_dim f) (sf_name f) (sf_descr f) off width lsb msb range (sf_access f) (sf_mwv f) (sf_wc f) (sf_ra f) (sf_evcs f) (sf_derived f).

Lemma digits_str n : 0 <= n -> digit_string (str_of_Z n).
Proof.
  intros H. unfold str_of_Z. replace (n <? 0) with false by lia. split; [apply nat_str_nonempty; [exact good10|exact H]|].
  apply nat_str_chars; [exact good10|exact H|]. intros d Hd. assert (Hs : d = 0 \/ d = 1 \/ d = 2 \/ d = 3 \/ d = 4 \/ d = 5 \/ d = 6 \/ d = 7 \/ d = 8 \/ d = 9) by lia.
  destruct Hs as [->|[->|[->|[->|[->|[->|[->|[->|[->| ->]]]]]]]]]; reflexivity.
Qed.
Lemma dec_val_str n : 0 <= n -> dec_val 0 (str_of_Z n) = n.
Proof.
  intros H. assert (H1 := py_int_dec _ (digits_str n H)). rewrite py_int_str in H1 by (left; reflexivity). congruence.
Qed.

(** the three notations of the same bits o .. o+w-1 produce the same field *)
Theorem C09_notations_equivalent : forall f base name k o w, 0 <= o -> 1 <= w ->
  let r := process_field k name (with_bits f (Some o) (Some w) None None None) base in
  process_field k name (with_bits f None None (Some o) (Some (o + w - 1)) None) base = r /\
  process_field k name (with_bits f None None None None (Some ("[" ++ str_of_Z (o + w - 1) ++ ":" ++ str_of_Z o ++ "]")%string)) base = r /\
  (exists g, r = ([], Ok g)).
Proof.
  intros f base name k o w Ho Hw. cbn zeta. unfold process_field, with_bits. cbn [sf_dim sf_name sf_descr sf_access sf_mwv sf_wc sf_ra].
  assert (H1 : process_field_msb_lsb (with_bits f (Some o) (Some w) None None None) (option_map if_b base) = ([], Ok (o + w - 1, o))).
  { unfold process_field_msb_lsb, with_bits. cbn. replace (o + w - 1 <? o) with false by lia. reflexivity. }
  assert (H2 : process_field_msb_lsb (with_bits f None None (Some o) (Some (o + w - 1)) None) (option_map if_b base) = ([], Ok (o + w - 1, o))).
  { unfold process_field_msb_lsb, with_bits. cbn. replace (o + w - 1 <? o) with false by lia. reflexivity. }
  assert (H3 : process_field_msb_lsb (with_bits f None None None None (Some ("[" ++ str_of_Z (o + w - 1) ++ ":" ++ str_of_Z o ++ "]")%string)) (option_map if_b base)
               = ([], Ok (o + w - 1, o))).
  { unfold process_field_msb_lsb, with_bits. cbn [sf_bit_offset sf_bit_width sf_lsb sf_msb sf_bit_range sf_name is_some orb].
    rewrite (re_bit_range_complete _ (str_of_Z (o + w - 1)) (str_of_Z o)).
    2: { repeat split; try (apply digits_str; lia). exists "". reflexivity. }
    rewrite !py_int_str by (left; reflexivity). replace (o + w - 1 <? o) with false by lia. rewrite bind_ret_l.
    unfold warn_if. replace (o + w - 1 <? o) with false by lia. now rewrite bind_ret_l. }
  unfold with_bits in H1, H2, H3. rewrite H1, H2, H3. cbn [bind]. repeat split. eexists. reflexivity.
Qed.

Example C09_nonvacuous :
  let f := mk_sfield (mk_sdim None None None None None) "F" None None None None None None None None None None [] None in
  Bits (with_bits f (Some 4) (Some 3) None None None) None 6 4 /\ Bits (with_bits f (Some 9) (Some 9) None None (Some "[6:4]"%string)) None 6 4
  /\ (forall m l, ~ Bits (with_bits f (Some 4) None None None None) None m l).
Proof.
  cbn zeta. repeat split.
  - apply Bits_offset; [reflexivity| |].
    + intros m l [H _]. cbn in H. destruct H; congruence.
    + split; [left; discriminate|]. split; [reflexivity|]. exists 3. split; reflexivity.
  - apply (Bits_range _ _ "[6:4]" "6" "4"); [reflexivity|]. split; [split; [discriminate|reflexivity]|]. split; [split; [discriminate|reflexivity]|].
    exists "". reflexivity.
  - intros m l H. destruct H as [s a b H _|m l _ [H _]|m l _ _ (_ & _ & w & H & _)]; cbn in *; try discriminate. destruct H; congruence.
Qed.

(** ** C10 *)
(** own value or else the base's, for the five register properties *)
Definition MergedProps (own base res : oprops) : Prop :=
  op_size res = own_or (op_size own) (op_size base) /\ op_access res = own_or (op_access own) (op_access base) /\
  op_prot res = own_or (op_prot own) (op_prot base) /\ op_rv res = own_or (op_rv own) (op_rv base) /\ op_rm res = own_or (op_rm own) (op_rm base).
Definition MergedDim (own : svd_dim) (base res : idim) : Prop :=
  id_dim res = own_or (sd_dim own) (id_dim base) /\ id_inc res = own_or (sd_inc own) (id_inc base) /\ id_index res = own_or (sd_index own) (id_index base).
(** an address block as the processed model shows it (protection "any" when unspecified) *)
Definition SameBlock (a : svd_ab) (b : addr_block) : Prop :=
  ab_offset b = sab_offset a /\ ab_size b = sab_size a /\ ab_us b = sab_usage a /\
  ab_prot b = Some (match sab_prot a with Some x => x | None => ANY end).

Lemma own_or_merge' {A B} (own : option B) (f : A -> option B) b : merge own f (Some b) = own_or own (f b).
Proof. unfold merge, or_if_none, of_base, own_or. destruct own; reflexivity. Qed.
Lemma own_or_none {A B} (own : option B) (f : A -> option B) : merge own f None = own.
Proof. unfold merge, or_if_none, of_base. destruct own; reflexivity. Qed.
Lemma merge_props_spec own b : MergedProps own b (merge_props own (Some b)).
Proof. unfold MergedProps, merge_props. cbn. now rewrite !own_or_merge'. Qed.
Lemma merge_dim_spec own b : MergedDim own b (merge_dim own (Some b)).
Proof. unfold MergedDim, merge_dim. cbn. now rewrite !own_or_merge'. Qed.

(** a derived peripheral: every inheritable property is the element's own or else the base's; name, base address, interrupts and
    header struct name are never the base's; own address blocks replace the base's *)
Theorem C10_peripheral : forall name p base, let r := process_peripheral 0 name p (Some base) in
  let b := ip_b base in
  pb_name (ip_b r) = name /\ pb_base (ip_b r) = sp_base p /\ pb_header (ip_b r) = sp_header p /\
  Listed int_value (sp_ints p) (pb_ints (ip_b r)) /\
  pb_version (ip_b r) = own_or (sp_version p) (pb_version b) /\ pb_descr (ip_b r) = own_or (sp_descr p) (pb_descr b) /\
  pb_altper (ip_b r) = own_or (sp_altper p) (pb_altper b) /\ pb_group (ip_b r) = own_or (sp_group p) (pb_group b) /\
  pb_prepend (ip_b r) = own_or (sp_prepend p) (pb_prepend b) /\ pb_append (ip_b r) = own_or (sp_append p) (pb_append b) /\
  pb_disable (ip_b r) = own_or (sp_disable p) (pb_disable b) /\
  (sp_abs p = [] -> pb_abs (ip_b r) = pb_abs b) /\
  (sp_abs p <> [] -> exists l, Forall2 SameBlock (sp_abs p) l /\ Listed ab_offset l (pb_abs (ip_b r))) /\
  MergedProps (sp_props p) (ip_props base) (ip_props r) /\ MergedDim (sp_dim p) (ip_dim base) (ip_dim r).
Proof.
  intros name p base. cbn zeta. unfold process_peripheral. cbn [option_map ip_b pb_name pb_base pb_header pb_ints pb_version pb_descr pb_altper pb_group pb_prepend pb_append pb_disable pb_abs ip_props ip_dim].
  rewrite !own_or_merge'.
  assert (E : forall x o, dim_shift x o 0 = x) by (intros x [i|]; cbn; lia). rewrite E.
  assert (Hab : forall l, exists m, Forall2 SameBlock l m /\ process_address_blocks l = isort (zkey_le ab_offset) m).
  { intros l. eexists. split; [|reflexivity]. induction l as [|a l IH]; cbn; constructor; [|exact IH]. unfold SameBlock. cbn. repeat split. }
  destruct (Hab (sp_abs p)) as (m & Hf & Hpa). rewrite Hpa.
  assert (Hperm := isort_perm (zkey_le ab_offset) m).
  repeat split; try apply merge_props_spec; try apply merge_dim_spec.
  - apply isort_perm.
  - apply isort_listed.
  - apply isort_listed.
  - intros H. rewrite H in Hf. inversion Hf. subst. reflexivity.
  - intros H. exists m. split; [exact Hf|]. assert (HL := isort_listed ab_offset m). destruct (isort (zkey_le ab_offset) m) as [|x l] eqn:Ei; [|exact HL].
    exfalso. apply Permutation_sym, Permutation_nil in Hperm. subst m. inversion Hf. congruence.
Qed.

(** a derived cluster *)
Theorem C10_cluster : forall name c base, let r := process_cluster 0 name c (Some base) in
  let b := ic_b base in
  cb_name (ic_b r) = name /\ cb_offset (ic_b r) = sc_offset c /\
  cb_descr (ic_b r) = own_or (sc_descr c) (cb_descr b) /\ cb_altclu (ic_b r) = own_or (sc_altclu c) (cb_altclu b) /\
  cb_header (ic_b r) = own_or (sc_header c) (cb_header b) /\
  MergedProps (sc_props c) (ic_props base) (ic_props r) /\ MergedDim (sc_dim c) (ic_dim base) (ic_dim r).
Proof.
  intros name c base. cbn zeta. unfold process_cluster. cbn [option_map ic_b cb_name cb_offset cb_descr cb_altclu cb_header ic_props ic_dim].
  rewrite !own_or_merge'. assert (E : forall x o, dim_shift x o 0 = x) by (intros x [i|]; cbn; lia). rewrite E.
  repeat split; try apply merge_props_spec; try apply merge_dim_spec.
Qed.

(** a derived register (the merged display name is a dim matter: [create_register] passes it in already expanded) *)
Theorem C10_register : forall name display r0 base, let r := process_register 0 name display r0 (Some base) in
  let b := ir_b base in
  rb_name (ir_b r) = name /\ rb_offset (ir_b r) = sr_offset r0 /\
  rb_descr (ir_b r) = own_or (sr_descr r0) (rb_descr b) /\ rb_altgroup (ir_b r) = own_or (sr_altgroup r0) (rb_altgroup b) /\
  rb_altreg (ir_b r) = own_or (sr_altreg r0) (rb_altreg b) /\ rb_dtype (ir_b r) = own_or (sr_dtype r0) (rb_dtype b) /\
  Some (rb_mwv (ir_b r)) = own_or (sr_mwv r0) (Some (rb_mwv b)) /\ rb_wc (ir_b r) = own_or (sr_wc r0) (rb_wc b) /\
  rb_ra (ir_b r) = own_or (sr_ra r0) (rb_ra b) /\
  MergedProps (sr_props r0) (ir_props base) (ir_props r) /\ MergedDim (sr_dim r0) (ir_dim base) (ir_dim r).
Proof.
  intros name display r0 base. cbn zeta. unfold process_register.
  cbn [option_map ir_b rb_name rb_offset rb_descr rb_altgroup rb_altreg rb_dtype rb_mwv rb_wc rb_ra ir_props ir_dim].
  rewrite !own_or_merge'. assert (E : forall x o, dim_shift x o 0 = x) by (intros x [i|]; cbn; lia). rewrite E.
  repeat split; try apply merge_props_spec; try apply merge_dim_spec. destruct (sr_mwv r0); reflexivity.
Qed.

(** a derived field; its bits: C09 *)
Theorem C10_field : forall name f base ws r, process_field 0 name f (Some base) = (ws, Ok r) ->
  let b := if_b base in
  fb_name (if_b r) = name /\ fb_descr (if_b r) = own_or (sf_descr f) (fb_descr b) /\
  Some (fb_mwv (if_b r)) = own_or (sf_mwv f) (Some (fb_mwv b)) /\ fb_wc (if_b r) = own_or (sf_wc f) (fb_wc b) /\
  fb_ra (if_b r) = own_or (sf_ra f) (fb_ra b) /\ if_access r = own_or (sf_access f) (if_access base) /\
  MergedDim (sf_dim f) (if_dim base) (if_dim r).
Proof.
  intros name f base ws r H. unfold process_field in H. minv. cbn zeta.
  cbn [option_map if_b fb_name fb_descr fb_mwv fb_wc fb_ra if_access if_dim].
  rewrite !own_or_merge'. repeat split; try apply merge_dim_spec.
  - destruct (sf_mwv f); reflexivity.
  - destruct (sf_access f); reflexivity.
Qed.

(** without derivedFrom: the element's own values *)
Theorem C10_no_base : forall name p c r0 display,
  (let r := process_peripheral 0 name p None in
   pb_version (ip_b r) = sp_version p /\ pb_descr (ip_b r) = sp_descr p /\ pb_altper (ip_b r) = sp_altper p /\ pb_group (ip_b r) = sp_group p /\
   pb_prepend (ip_b r) = sp_prepend p /\ pb_append (ip_b r) = sp_append p /\ pb_disable (ip_b r) = sp_disable p /\ ip_props r = sp_props p) /\
  (let r := process_cluster 0 name c None in
   cb_descr (ic_b r) = sc_descr c /\ cb_altclu (ic_b r) = sc_altclu c /\ cb_header (ic_b r) = sc_header c /\ ic_props r = sc_props c) /\
  (let r := process_register 0 name display r0 None in
   rb_descr (ir_b r) = sr_descr r0 /\ rb_altgroup (ir_b r) = sr_altgroup r0 /\ rb_altreg (ir_b r) = sr_altreg r0 /\ rb_dtype (ir_b r) = sr_dtype r0 /\
   rb_wc (ir_b r) = sr_wc r0 /\ rb_ra (ir_b r) = sr_ra r0 /\ rb_mwv (ir_b r) = match sr_mwv r0 with Some m => m | None => MWV_MODIFY end /\ ir_props r = sr_props r0).
Proof.
  intros. unfold process_peripheral, process_cluster, process_register. cbn. rewrite !own_or_none.
  assert (E : forall q, merge_props q None = q) by (intros [? ? ? ? ?]; unfold merge_props; cbn; now rewrite !own_or_none).
  rewrite !E. repeat split.
Qed.

Example C10_nonvacuous :
  let p0 := mk_oprops (Some 16) None None None None in let p1 := mk_oprops None (Some READ_ONLY) None None (Some 255) in
  merge_props p0 (Some p1) = mk_oprops (Some 16) (Some READ_ONLY) None None (Some 255).
Proof. reflexivity. Qed.

(** ** C39 *)
Definition with_default {A} (o : option A) (d : A) : A := match o with Some a => a | None => d end.
Theorem C39_cpu_defaults : forall c, let r := process_cpu c in
  cpu_nm r = (match scpu_name c with CM0_PLUS => CM0PLUS | n => n end) /\
  cpu_rev r = scpu_rev c /\ cpu_endian r = scpu_endian c /\ cpu_nvic r = scpu_nvic c /\ cpu_systick r = scpu_systick c /\
  cpu_numint r = scpu_numint c /\ cpu_saunum r = scpu_saunum c /\
  cpu_mpu r = with_default (scpu_mpu c) false /\ cpu_fpu r = with_default (scpu_fpu c) false /\ cpu_fpudp r = with_default (scpu_fpudp c) false /\
  cpu_dsp r = with_default (scpu_dsp c) false /\ cpu_icache r = with_default (scpu_icache c) false /\ cpu_dcache r = with_default (scpu_dcache c) false /\
  cpu_itcm r = with_default (scpu_itcm c) false /\ cpu_dtcm r = with_default (scpu_dtcm c) false /\ cpu_vtor r = with_default (scpu_vtor c) true /\
  match scpu_sau c, cpu_sau r with
  | None, None => True
  | Some s, Some t => sauc_enabled t = with_default (ssc_enabled s) true /\ sauc_prot t = with_default (ssc_prot s) SECURE /\
      Forall2 (fun a b => sau_enabled b = with_default (ssr_enabled a) true /\ sau_name b = ssr_name a /\ sau_rbase b = ssr_base a /\
                          sau_limit b = ssr_limit a /\ sau_racc b = ssr_access a) (ssc_regions s) (sauc_regions t)
  | _, _ => False
  end.
Proof.
  intros c. cbn zeta. repeat split. unfold process_cpu. cbn. destruct (scpu_sau c) as [s|]; cbn; [|exact I]. repeat split.
  induction (ssc_regions s) as [|a l IH]; cbn; constructor; [|exact IH]. repeat split.
Qed.
Example C39_nonvacuous :
  let c := process_cpu (mk_scpu CM0_PLUS "r0p0" LITTLE None (Some true) None None None None None None None 2 true None None None) in
  cpu_nm c = CM0PLUS /\ cpu_fpu c = true /\ cpu_mpu c = false /\ cpu_vtor c = true.
Proof. repeat split. Qed.

Print Assumptions C09_field_bits.
Print Assumptions C09_no_bits_rejected.
Print Assumptions C09_notations_equivalent.
Print Assumptions C10_peripheral.
Print Assumptions C10_cluster.
Print Assumptions C10_register.
Print Assumptions C10_field.
Print Assumptions C10_no_base.
Print Assumptions C39_cpu_defaults.
