(** * SpecRoundTrip: what writing a device to a file and reading it again preserves (for C27)

    [kept_*] says, element by element, what is read back. Nothing here refers to the serializer or the parser. *)
From Verif Require Import Base PyStr Types.

(** an empty text is not written differently from no text; surrounding white space is removed on reading *)
Definition kept (o : option string) : option string :=
  match o with Some s => if String.eqb s "" then None else Some (strip s) | None => None end.
(** descriptions, license texts and conditions are read unstripped *)
Definition kept_raw (o : option string) : option string :=
  match o with Some s => if String.eqb s "" then None else Some s | None => None end.
(** two numbers that are only written when both are present *)
Definition kept_pair (a b : option Z) : option Z * option Z :=
  match a, b with Some x, Some y => (Some x, Some y) | _, _ => (None, None) end.

Definition kept_ev (v : svd_ev) : svd_ev := mk_sev (strip (sev_name v)) (kept_raw (sev_descr v)) (kept (sev_value v)) (sev_default v).
Definition kept_dai (d : svd_dai) : svd_dai := mk_sdai (kept (sdai_header d)) (map kept_ev (sdai_evs d)).
Definition kept_dim (d : svd_dim) : svd_dim :=
  mk_sdim (sd_dim d) (sd_inc d) (kept (sd_index d)) (kept (sd_name d)) (option_map kept_dai (sd_dai d)).
Definition kept_evc (c : svd_evc) : svd_evc :=
  mk_sevc (kept (sevc_name c)) (kept (sevc_header c)) (sevc_usage c) (map kept_ev (sevc_evs c)) (option_map strip (sevc_derived c)).
Definition kept_field (f : svd_field) : svd_field :=
  let p := kept_pair (sf_bit_offset f) (sf_bit_width f) in
  let q := kept_pair (sf_lsb f) (sf_msb f) in
  mk_sfield (kept_dim (sf_dim f)) (strip (sf_name f)) (kept_raw (sf_descr f)) (fst p) (snd p) (fst q) (snd q)
    (kept (sf_bit_range f)) (sf_access f) (sf_mwv f) (sf_wc f) (sf_ra f) (map kept_evc (sf_evcs f)) (option_map strip (sf_derived f)).
Definition kept_reg (r : svd_reg) : svd_reg :=
  mk_sreg (kept_dim (sr_dim r)) (sr_props r) (strip (sr_name r)) (kept (sr_display r)) (kept_raw (sr_descr r))
    (kept (sr_altgroup r)) (kept (sr_altreg r)) (sr_offset r) (sr_dtype r) (sr_mwv r) (sr_wc r) (sr_ra r)
    (map kept_field (sr_fields r)) (option_map strip (sr_derived r)).
Definition kept_clu (c : svd_clu) : svd_clu :=
  mk_sclu (kept_dim (sc_dim c)) (sc_props c) (strip (sc_name c)) (kept_raw (sc_descr c)) (kept (sc_altclu c))
    (kept (sc_header c)) (sc_offset c) (option_map strip (sc_derived c)).
Fixpoint kept_rc (x : svd_rc) : svd_rc :=
  match x with SReg r => SReg (kept_reg r) | SClu c l => SClu (kept_clu c) (map kept_rc l) end.
Definition kept_int (i : interrupt) : interrupt := mk_int (strip (int_name i)) (kept_raw (int_descr i)) (int_value i).
Definition kept_per (p : svd_periph) : svd_periph :=
  mk_sper (kept_dim (sp_dim p)) (sp_props p) (strip (sp_name p)) (kept (sp_version p)) (kept_raw (sp_descr p))
    (kept (sp_altper p)) (kept (sp_group p)) (kept (sp_prepend p)) (kept (sp_append p)) (kept (sp_header p))
    (kept_raw (sp_disable p)) (sp_base p) (sp_abs p) (map kept_int (sp_ints p)) (map kept_rc (sp_rcs p))
    (option_map strip (sp_derived p)).
Definition kept_sau_region (r : svd_sau_region) : svd_sau_region :=
  mk_ssr (ssr_enabled r) (option_map strip (ssr_name r)) (ssr_base r) (ssr_limit r) (ssr_access r).
Definition kept_sau (c : svd_sau_config) : svd_sau_config := mk_ssc (ssc_enabled c) (ssc_prot c) (map kept_sau_region (ssc_regions c)).
Definition kept_cpu (c : svd_cpu) : svd_cpu :=
  mk_scpu (scpu_name c) (strip (scpu_rev c)) (scpu_endian c) (scpu_mpu c) (scpu_fpu c) (scpu_fpudp c) (scpu_dsp c)
    (scpu_icache c) (scpu_dcache c) (scpu_itcm c) (scpu_dtcm c) (scpu_vtor c) (scpu_nvic c) (scpu_systick c)
    (scpu_numint c) (scpu_saunum c) (option_map kept_sau (scpu_sau c)).
Definition kept_device (d : svd_device) : svd_device :=
  mk_sdev (sdv_props d) (strip (sdv_xs d)) (strip (sdv_schema d)) (kept (sdv_vendor d)) (kept (sdv_vendor_id d))
    (strip (sdv_name d)) (kept (sdv_series d)) (strip (sdv_version d)) (sdv_descr d) (kept_raw (sdv_license d))
    (option_map kept_cpu (sdv_cpu d)) (kept (sdv_hsf d)) (kept (sdv_hdp d)) (sdv_aub d) (sdv_width d)
    (map kept_per (sdv_periphs d)).

(** every mandatory text is non-empty, and there is a peripheral *)
Definition named_dim (d : svd_dim) : Prop :=
  match sd_dai d with Some i => Forall (fun v => sev_name v <> "") (sdai_evs i) | None => True end.
Definition named_field (f : svd_field) : Prop :=
  sf_name f <> "" /\ named_dim (sf_dim f) /\ Forall (fun c => Forall (fun v => sev_name v <> "") (sevc_evs c)) (sf_evcs f).
Definition named_reg (r : svd_reg) : Prop := sr_name r <> "" /\ named_dim (sr_dim r) /\ Forall named_field (sr_fields r).
Inductive named_rc : svd_rc -> Prop :=
| named_r r : named_reg r -> named_rc (SReg r)
| named_c c l : sc_name c <> "" -> named_dim (sc_dim c) -> Forall named_rc l -> named_rc (SClu c l).
Definition named_per (p : svd_periph) : Prop :=
  sp_name p <> "" /\ named_dim (sp_dim p) /\ Forall (fun i => int_name i <> "") (sp_ints p) /\ Forall named_rc (sp_rcs p).
Definition named_device (d : svd_device) : Prop :=
  sdv_name d <> "" /\ sdv_version d <> "" /\ (forall c, sdv_cpu d = Some c -> scpu_rev c <> "") /\
  sdv_periphs d <> [] /\ Forall named_per (sdv_periphs d).

(** ** Devices that lose nothing *)
(** no surrounding white space *)
Definition trimmed (s : string) : Prop := strip s = s.
(** an optional text that is absent, or neither empty nor padded *)
Definition ok_text (o : option string) : Prop := forall s, o = Some s -> s <> "" /\ trimmed s.
(** an optional description: absent or not empty *)
Definition ok_raw (o : option string) : Prop := forall s, o = Some s -> s <> "".
(** an optional attribute: absent or not padded *)
Definition ok_attr (o : option string) : Prop := forall s, o = Some s -> trimmed s.
(** both or neither *)
Definition ok_pair (a b : option Z) : Prop := a = None <-> b = None.

Definition faithful_ev (v : svd_ev) : Prop := trimmed (sev_name v) /\ ok_raw (sev_descr v) /\ ok_text (sev_value v).
Definition faithful_dim (d : svd_dim) : Prop :=
  ok_text (sd_index d) /\ ok_text (sd_name d) /\
  (forall i, sd_dai d = Some i -> ok_text (sdai_header i) /\ Forall faithful_ev (sdai_evs i)).
Definition faithful_evc (c : svd_evc) : Prop :=
  ok_text (sevc_name c) /\ ok_text (sevc_header c) /\ ok_attr (sevc_derived c) /\ Forall faithful_ev (sevc_evs c).
Definition faithful_field (f : svd_field) : Prop :=
  faithful_dim (sf_dim f) /\ trimmed (sf_name f) /\ ok_raw (sf_descr f) /\ ok_pair (sf_bit_offset f) (sf_bit_width f) /\
  ok_pair (sf_lsb f) (sf_msb f) /\ ok_text (sf_bit_range f) /\ Forall faithful_evc (sf_evcs f) /\ ok_attr (sf_derived f).
Definition faithful_reg (r : svd_reg) : Prop :=
  faithful_dim (sr_dim r) /\ trimmed (sr_name r) /\ ok_text (sr_display r) /\ ok_raw (sr_descr r) /\ ok_text (sr_altgroup r) /\
  ok_text (sr_altreg r) /\ Forall faithful_field (sr_fields r) /\ ok_attr (sr_derived r).
Definition faithful_clu (c : svd_clu) : Prop :=
  faithful_dim (sc_dim c) /\ trimmed (sc_name c) /\ ok_raw (sc_descr c) /\ ok_text (sc_altclu c) /\ ok_text (sc_header c) /\ ok_attr (sc_derived c).
Inductive faithful_rc : svd_rc -> Prop :=
| faithful_r r : faithful_reg r -> faithful_rc (SReg r)
| faithful_c c l : faithful_clu c -> Forall faithful_rc l -> faithful_rc (SClu c l).
Definition faithful_per (p : svd_periph) : Prop :=
  faithful_dim (sp_dim p) /\ trimmed (sp_name p) /\ ok_text (sp_version p) /\ ok_raw (sp_descr p) /\ ok_text (sp_altper p) /\
  ok_text (sp_group p) /\ ok_text (sp_prepend p) /\ ok_text (sp_append p) /\ ok_text (sp_header p) /\ ok_raw (sp_disable p) /\
  Forall (fun i => trimmed (int_name i) /\ ok_raw (int_descr i)) (sp_ints p) /\ Forall faithful_rc (sp_rcs p) /\ ok_attr (sp_derived p).
Definition faithful_cpu (c : svd_cpu) : Prop :=
  trimmed (scpu_rev c) /\ (forall s, scpu_sau c = Some s -> Forall (fun r => ok_attr (ssr_name r)) (ssc_regions s)).
Definition faithful_device (d : svd_device) : Prop :=
  trimmed (sdv_xs d) /\ trimmed (sdv_schema d) /\ ok_text (sdv_vendor d) /\ ok_text (sdv_vendor_id d) /\ trimmed (sdv_name d) /\
  ok_text (sdv_series d) /\ trimmed (sdv_version d) /\ ok_raw (sdv_license d) /\ (forall c, sdv_cpu d = Some c -> faithful_cpu c) /\
  ok_text (sdv_hsf d) /\ ok_text (sdv_hdp d) /\ Forall faithful_per (sdv_periphs d).
