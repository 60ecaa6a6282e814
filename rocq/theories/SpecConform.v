(** * SpecConform: descriptions whose texts, numbers and combinations the schema allows (for C58)

    In terms of the schema's simple types only; [txt ty s]: the text [s] is of the simple type [ty], not blank, not empty. *)
From Verif Require Import Base Types SpecSchema.

Definition txt (ty s : string) : Prop := InSimple Rewritable ty s.
Definition otxt (ty : string) (o : option string) : Prop := forall s, o = Some s -> txt ty s.
Definition nonneg (o : option Z) : Prop := forall v, o = Some v -> 0 <= v.
(** the schema knows the protections s, n and p *)
Definition noany (o : option protection) : Prop := o <> Some ANY.
Definition given {A} (o : option A) : Prop := o <> None.
Definition holds {A} (P : A -> Prop) (o : option A) : Prop := forall x, o = Some x -> P x.

(** either a value or isDefault *)
Definition conform_ev (v : svd_ev) : Prop :=
  txt "identifierType" (sev_name v) /\ otxt "stringType" (sev_descr v) /\ otxt "enumeratedValueDataType" (sev_value v) /\
  (given (sev_value v) <-> sev_default v = None).
Definition conform_dai (d : svd_dai) : Prop :=
  otxt "identifierType" (sdai_header d) /\ sdai_evs d <> [] /\ Forall conform_ev (sdai_evs d).
(** dim and dimIncrement come together, the other dim elements only with them *)
Definition conform_dim (d : svd_dim) : Prop :=
  (given (sd_dim d) <-> given (sd_inc d)) /\ nonneg (sd_dim d) /\ nonneg (sd_inc d) /\
  otxt "dimIndexType" (sd_index d) /\ otxt "identifierType" (sd_name d) /\ holds conform_dai (sd_dai d) /\
  (given (sd_index d) \/ given (sd_name d) \/ given (sd_dai d) -> given (sd_dim d)).
Definition conform_props (p : oprops) : Prop := nonneg (op_size p) /\ noany (op_prot p) /\ nonneg (op_rv p) /\ nonneg (op_rm p).
(** exactly one kind of constraint *)
Definition conform_wc (w : write_constraint) : Prop :=
  match wc_write_as_read w, wc_use_enum w, wc_range w with
  | Some _, None, None | None, Some _, None => True
  | None, None, Some (lo, hi) => 0 <= lo /\ 0 <= hi
  | _, _, _ => False
  end.
Definition conform_evc (c : svd_evc) : Prop :=
  otxt "referenceIdentifierType" (sevc_derived c) /\ otxt "identifierType" (sevc_name c) /\ otxt "identifierType" (sevc_header c) /\
  Forall conform_ev (sevc_evs c).
(** exactly one notation for the bits: lsb and msb, bitOffset and bitWidth, or bitRange *)
Definition conform_bits (f : svd_field) : Prop :=
  nonneg (sf_bit_offset f) /\ nonneg (sf_bit_width f) /\ nonneg (sf_lsb f) /\ nonneg (sf_msb f) /\ otxt "bitRangeType" (sf_bit_range f) /\
  match sf_lsb f, sf_msb f, sf_bit_offset f, sf_bit_width f, sf_bit_range f with
  | Some _, Some _, None, None, None | None, None, Some _, Some _, None | None, None, None, None, Some _ => True
  | _, _, _, _, _ => False
  end.
Definition conform_field (f : svd_field) : Prop :=
  otxt "referenceIdentifierType" (sf_derived f) /\ conform_dim (sf_dim f) /\ txt "dimableIdentifierType" (sf_name f) /\
  otxt "stringType" (sf_descr f) /\ conform_bits f /\ holds conform_wc (sf_wc f) /\ Forall conform_evc (sf_evcs f) /\
  (length (sf_evcs f) <= 2)%nat.
Definition conform_reg (r : svd_reg) : Prop :=
  otxt "referenceIdentifierType" (sr_derived r) /\ conform_dim (sr_dim r) /\ txt "dimableIdentifierType" (sr_name r) /\
  otxt "stringType" (sr_display r) /\ otxt "stringType" (sr_descr r) /\ otxt "identifierType" (sr_altgroup r) /\
  otxt "dimableIdentifierType" (sr_altreg r) /\ (sr_altgroup r = None \/ sr_altreg r = None) /\ 0 <= sr_offset r /\
  conform_props (sr_props r) /\ holds conform_wc (sr_wc r) /\ Forall conform_field (sr_fields r).
Definition conform_clu (c : svd_clu) : Prop :=
  otxt "referenceIdentifierType" (sc_derived c) /\ conform_dim (sc_dim c) /\ txt "dimableIdentifierType" (sc_name c) /\
  otxt "stringType" (sc_descr c) /\ given (sc_descr c) /\ otxt "dimableIdentifierType" (sc_altclu c) /\
  otxt "identifierType" (sc_header c) /\ 0 <= sc_offset c /\ conform_props (sc_props c).
Inductive conform_rc : svd_rc -> Prop :=
| conform_SReg r : conform_reg r -> conform_rc (SReg r)
| conform_SClu c l : conform_clu c -> Forall conform_rc l -> conform_rc (SClu c l).
Definition conform_ab (a : svd_ab) : Prop := 0 <= sab_offset a /\ 0 <= sab_size a /\ noany (sab_prot a).
Definition conform_int (i : interrupt) : Prop := txt "stringType" (int_name i).
Definition conform_per (p : svd_periph) : Prop :=
  otxt "dimableIdentifierType" (sp_derived p) /\ conform_dim (sp_dim p) /\ txt "dimableIdentifierType" (sp_name p) /\
  otxt "stringType" (sp_version p) /\ otxt "stringType" (sp_descr p) /\ otxt "dimableIdentifierType" (sp_altper p) /\
  otxt "xs:Name" (sp_group p) /\ otxt "identifierType" (sp_prepend p) /\ otxt "identifierType" (sp_append p) /\
  otxt "dimableIdentifierType" (sp_header p) /\ otxt "stringType" (sp_disable p) /\ 0 <= sp_base p /\ conform_props (sp_props p) /\
  Forall conform_ab (sp_abs p) /\ Forall conform_int (sp_ints p) /\ Forall conform_rc (sp_rcs p).
Definition conform_region (r : svd_sau_region) : Prop := 0 <= ssr_base r /\ 0 <= ssr_limit r.
Definition conform_sau (c : svd_sau_config) : Prop := noany (ssc_prot c) /\ Forall conform_region (ssc_regions c).
Definition conform_cpu (c : svd_cpu) : Prop :=
  txt "revisionType" (scpu_rev c) /\ 0 <= scpu_nvic c /\ nonneg (scpu_numint c) /\ nonneg (scpu_saunum c) /\ holds conform_sau (scpu_sau c).
Definition conform_device (d : svd_device) : Prop :=
  txt "xs:decimal" (sdv_schema d) /\ otxt "stringType" (sdv_vendor d) /\ otxt "identifierType" (sdv_vendor_id d) /\
  txt "identifierType" (sdv_name d) /\ otxt "stringType" (sdv_series d) /\ txt "stringType" (sdv_version d) /\
  txt "stringType" (sdv_descr d) /\ otxt "stringType" (sdv_license d) /\ holds conform_cpu (sdv_cpu d) /\
  otxt "identifierType" (sdv_hsf d) /\ otxt "identifierType" (sdv_hdp d) /\ 0 <= sdv_aub d /\ 0 <= sdv_width d /\
  conform_props (sdv_props d) /\ sdv_periphs d <> [] /\ Forall conform_per (sdv_periphs d).
