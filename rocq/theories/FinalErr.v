(** * FinalErr: the exceptions of validation/finalization. *)
From Verif Require Import Base PyStr PyInt Types FinalModel SpecDevice FinalFacts AltFacts OverlapFacts EffectFacts.

Definition anyw (w : warning) : Prop := True.
Definition fin_exn (c : exn_class) : Prop := c = ProcessException \/ c = KeyError.
Notation FE := (Emits anyw fin_exn).
Lemma fe_pe : fin_exn ProcessException. Proof. now left. Qed.
Lemma fe_ke : fin_exn KeyError. Proof. now right. Qed.
Lemma fe_w w : anyw w. Proof. exact I. Qed.
Local Hint Resolve fe_pe fe_ke fe_w : fe.
Ltac fem := em; auto with fe.

Lemma fe_enum_values l lsb msb : FE (fin_enum_values l lsb msb).
Proof. induction l as [|v l IH]; cbn [fin_enum_values]; fem. Qed.
Lemma fe_containers l lsb msb : FE (fin_enum_containers l lsb msb).
Proof. unfold fin_enum_containers. fem. apply fe_enum_values. Qed.
Lemma fe_fields_loop a wc l : forall seen, FE (fin_fields_loop seen (map (inherit_field (Some a) wc) l)).
Proof.
  induction l as [|f l IH]; intros seen; cbn [fin_fields_loop map]; fem; try apply fe_containers; try apply IH.
  unfold field_from. cbn [if_access inherit_field]. unfold or_if_none. destruct (if_access f); fem.
Qed.
Lemma fe_check_fields size l : forall rd wr, FE (check_fields rd wr size l).
Proof. induction l as [|f l IH]; intros; cbn [check_fields]; fem; try apply IH. Qed.
Lemma fe_fields a wc l size : FE (fin_fields (map (inherit_field (Some a) wc) l) size).
Proof. unfold fin_fields. fem; [apply fe_fields_loop|apply fe_check_fields]. Qed.

Lemma fe_allowed strict alts st : NoDup (map fst alts) -> FE (compute_allowed strict alts st).
Proof.
  intros N. destruct (compute_allowed strict alts st) as [ws [r|e]] eqn:E; split; cbn; try (apply Forall_forall; intros; exact I); [exact I|].
  destruct (compute_allowed_err _ _ _ _ _ N E) as (_ & -> & _). auto with fe.
Qed.
Lemma fe_check_item x al f iv : FE (check_item x al f iv).
Proof. unfold check_item. fem. Qed.
Lemma fe_check_rc regs clus l : NoDup (map fst regs) -> NoDup (map fst clus) -> forall iv, FE (check_rc_overlaps regs clus iv l).
Proof.
  intros N1 N2. induction l as [|x l IH]; intros iv; cbn [check_rc_overlaps]; fem; try apply IH; try apply fe_check_item;
    apply fe_allowed; rewrite map_map; cbn [fst]; assumption.
Qed.
Lemma fe_fin_loop f l : (forall x, In x l -> FE (f x)) -> forall acc, FE (fin_loop f l acc).
Proof.
  induction l as [|x l IH]; intros H acc; cbn [fin_loop]; [apply emits_ret|]. apply emits_bind; [apply H; now left|]. intros ws o _.
  assert (Hl : forall acc, FE (fin_loop f l acc)) by (apply IH; intros; apply H; now right).
  destruct o as [y|]; [|apply Hl]. apply emits_bind; [fem|]. intros. apply Hl.
Qed.
Lemma fe_fin_rcs f l : (forall x, In x l -> FE (f x)) -> FE (fin_rcs f l).
Proof.
  intros H. unfold fin_rcs. apply emits_bind; [now apply fe_fin_loop|]. intros ws r Hr.
  destruct (fin_loop_ok f l [] ws r Hr) as (ys & _ & _ & N); [constructor|].
  apply emits_bind; [|intros; apply emits_ret]. apply fe_check_rc; [now apply reg_lookup_keys|now apply clu_lookup_keys].
Qed.
Lemma inherit_complete own p : exists q, inherit_oprops own (oprops_of_props p) = oprops_of_props q.
Proof.
  destruct own as [s a pr rv rm], p as [ps pa pp prv prm]. unfold inherit_oprops, oprops_of_props. cbn.
  exists (mk_props (default ps s) (default pa a) (default pp pr) (default prv rv) (default prm rm)). cbn.
  destruct s, a, pr, rv, rm; reflexivity.
Qed.
Lemma fe_validator p : FE (reg_prop_validator (oprops_of_props p)).
Proof. unfold reg_prop_validator. cbn. fem. Qed.
Lemma fe_fin_rc x : forall p base, FE (fin_rc (inherit_rc (oprops_of_props p) x) base).
Proof.
  induction x as [r|c l IH] using irc_ind'; intros p base.
  - cbn [inherit_rc]. destruct (inherit_complete (ir_props r) p) as [q Eq]. rewrite Eq. cbn [fin_rc irc_props ir_props irc_offset irc_name ir_b ir_fields].
    change (op_size (oprops_of_props q)) with (Some (p_size q)). change (op_access (oprops_of_props q)) with (Some (p_access q)). cbn iota.
    unfold to_byte, get_alignment. fem; try apply fe_fields; apply fe_validator.
  - cbn [inherit_rc]. destruct (inherit_complete (ic_props c) p) as [q Eq]. rewrite Eq. cbn [fin_rc irc_props ic_props irc_offset irc_name ic_b].
    change (op_size (oprops_of_props q)) with (Some (p_size q)). cbn iota.
    unfold to_byte, get_alignment. fem; try apply fe_validator; apply fe_fin_rcs; intros y Hy; apply in_map_iff in Hy; destruct Hy as (z & <- & Hz);
    rewrite Forall_forall in IH; now apply IH.
Qed.
Lemma fe_fin_per p dp : FE (fin_per (inherit_per (oprops_of_props dp) p)).
Proof.
  unfold fin_per, inherit_per. destruct (inherit_complete (ip_props p) dp) as [q Eq]. rewrite Eq. cbn [ip_b ip_rcs ip_props].
  change (op_size (oprops_of_props q)) with (Some (p_size q)). cbn iota.
  apply emits_bind.
  - apply fe_fin_rcs. intros y Hy. apply in_map_iff in Hy. destruct Hy as (z & <- & Hz). apply fe_fin_rc.
  - intros ws rcs _. assert (Hc : forall l, FE (check_address_blocks l)).
    { induction l as [|a [|b l] IH]; cbn [check_address_blocks]; fem. }
    fem; try apply fe_validator; try apply Hc.
Qed.
Lemma fe_pers_loop dp l : forall acc, FE (fin_pers_loop (map (inherit_per (oprops_of_props dp)) l) acc).
Proof. induction l as [|p l IH]; intros acc; cbn [fin_pers_loop map]; fem; try apply IH. apply fe_fin_per. Qed.
Lemma fe_check_per alts l : NoDup (map fst alts) -> forall eff spec, FE (check_per_overlaps alts eff spec l).
Proof.
  intros N. induction l as [|p l IH]; intros; cbn [check_per_overlaps]; fem; try apply IH; try (now apply fe_allowed); unfold check_per_intervals; fem.
Qed.
Lemma fe_finalize d : FE (finalize (inherit_properties d)).
Proof.
  unfold finalize, inherit_properties, fin_pers. cbn [idv_periphs idv_b]. apply emits_bind; [|intros; apply emits_ret]. apply emits_bind; [apply fe_pers_loop|].
  intros ws r Hr. destruct (fin_pers_loop_ok _ [] ws r Hr) as (ys & _ & _ & N); [constructor|].
  apply emits_bind; [|intros; apply emits_ret]. apply fe_check_per. rewrite map_map. exact N.
Qed.
