(** * SpecParse: how an SVD document is read, declaratively (for C28).

    [reads_x e v]: the element [e] stands for the value [v].  Uses the data types and the texts of SpecText only. *)
From Verif Require Import Base Types ParseModel SpecText.

(** ** Choosing among the children *)
Definition Named (n : string) (e : xml) : Prop := exists a t ks, e = Elem n a t ks.
Definition NoneNamed (n : string) (l : list xml) : Prop := forall y, In y l -> ~ Named n y.
Definition LastNamed (n : string) (l : list xml) (e : xml) : Prop :=
  exists l1 l2, l = l1 ++ e :: l2 /\ Named n e /\ NoneNamed n l2.
Definition FirstNamed (n : string) (l : list xml) (e : xml) : Prop :=
  exists l1 l2, l = l1 ++ e :: l2 /\ Named n e /\ NoneNamed n l1.
(** all of them, in document order *)
Inductive AllNamed (n : string) : list xml -> list xml -> Prop :=
| all_end : AllNamed n [] []
| all_take e l r : Named n e -> AllNamed n l r -> AllNamed n (e :: l) (e :: r)
| all_skip e l r : ~ Named n e -> AllNamed n l r -> AllNamed n (e :: l) r.

Definition Opt {A B} (R : A -> B -> Prop) (a : option A) (b : option B) : Prop :=
  match a, b with Some x, Some y => R x y | None, None => True | _, _ => False end.

(** the text of the last child named [n]; absent if there is none or it has no text.  A repeated child is only readable if every
    occurrence has a text. *)
Definition Raw (n : string) (e : xml) (o : option string) : Prop :=
  (forall es, AllNamed n (xml_kids e) es -> (2 <= length es)%nat -> forall c, In c es -> xml_text c <> None) /\
  (NoneNamed n (xml_kids e) /\ o = None \/ exists c, LastNamed n (xml_kids e) c /\ xml_text c = o).
Definition Text (n : string) (e : xml) (o : option string) : Prop := exists r, Raw n e r /\ Opt Stripped r o.
(** an attribute of [e] (XML attribute names are unique) *)
Definition Attr (n : string) (e : xml) (o : option string) : Prop :=
  ((forall v, ~ In (n, v) (xml_attrs e)) /\ o = None) \/
  exists v t l1 l2, xml_attrs e = l1 ++ (n, v) :: l2 /\ ~ In n (map fst l1) /\ Stripped v t /\ o = Some t.
(** the first child named [n], read by [R] *)
Definition Child {A} (n : string) (R : xml -> A -> Prop) (e : xml) (o : option A) : Prop :=
  NoneNamed n (xml_kids e) /\ o = None \/ exists c v, FirstNamed n (xml_kids e) c /\ R c v /\ o = Some v.
(** all children named [n], read by [R] *)
Definition Children {A} (n : string) (R : xml -> A -> Prop) (e : xml) (l : list A) : Prop :=
  exists es, AllNamed n (xml_kids e) es /\ Forall2 R es l.

(** ** Texts as values *)
Definition IntText (t : string) (n : Z) : Prop := Numeral (unhash t) n.
Definition BoolText (t : string) (b : bool) : Prop :=
  if b then SameUpToCase t "true" \/ t = "1" else SameUpToCase t "false" \/ t = "0".
Definition Key {A} (value : A -> string) (t : string) (a : A) : Prop := t = value a.
Definition CpuText (t : string) (c : cpu_name) : Prop := SameUpToCase t (cpu_member c) \/ (t = "CM0+" /\ c = CM0_PLUS).
Definition AccessIs (t : string) (a : access) : Prop :=
  SameUpToCase t (access_value a) \/ (a = READ_ONLY /\ SameUpToCase t "read") \/ (a = WRITE_ONLY /\ SameUpToCase t "write").
(** an unknown access type counts as absent *)
Definition AccessText (t : string) (o : option access) : Prop :=
  match o with Some a => AccessIs t a | None => forall a, ~ AccessIs t a end.

(** an optional text child, read as a value; a mandatory one *)
Definition Reads {A} (R : string -> A -> Prop) (n : string) (e : xml) (o : option A) : Prop := exists t, Text n e t /\ Opt R t o.
Definition Must {A} (R : string -> A -> Prop) (n : string) (e : xml) (v : A) : Prop := exists t, Text n e (Some t) /\ R t v.
Definition Is (t u : string) : Prop := t = u.
Definition Access (e : xml) (o : option access) : Prop :=
  exists t, Text "access" e t /\ match t with None => o = None | Some t => AccessText t o end.
(** [o] is read, an absent one counts as [d] *)
Definition Else {A} (d : A) (o : option A) (v : A) : Prop := match o with Some x => v = x | None => v = d end.
Definition AttrReads {A} (R : string -> A -> Prop) (n : string) (e : xml) (o : option A) : Prop := exists t, Attr n e t /\ Opt R t o.

(** ** Elements *)
Definition reads_props (e : xml) (p : oprops) : Prop :=
  Reads IntText "size" e (op_size p) /\ Access e (op_access p) /\ Reads (Key protection_value) "protection" e (op_prot p) /\
  Reads IntText "resetValue" e (op_rv p) /\ Reads IntText "resetMask" e (op_rm p).
Definition reads_sau_region (e : xml) (r : svd_sau_region) : Prop :=
  AttrReads BoolText "enabled" e (ssr_enabled r) /\ Attr "name" e (ssr_name r) /\ Must IntText "base" e (ssr_base r) /\
  Must IntText "limit" e (ssr_limit r) /\ Must (Key sau_access_value) "access" e (ssr_access r).
Definition reads_sau (e : xml) (c : svd_sau_config) : Prop :=
  AttrReads BoolText "enabled" e (ssc_enabled c) /\ AttrReads (Key protection_value) "protectionWhenDisabled" e (ssc_prot c) /\
  Children "region" reads_sau_region e (ssc_regions c).
Definition reads_cpu (e : xml) (c : svd_cpu) : Prop :=
  Must CpuText "name" e (scpu_name c) /\ Must Is "revision" e (scpu_rev c) /\ Must (Key endian_value) "endian" e (scpu_endian c) /\
  Reads BoolText "mpuPresent" e (scpu_mpu c) /\ Reads BoolText "fpuPresent" e (scpu_fpu c) /\ Reads BoolText "fpuDP" e (scpu_fpudp c) /\
  Reads BoolText "dspPresent" e (scpu_dsp c) /\ Reads BoolText "icachePresent" e (scpu_icache c) /\
  Reads BoolText "dcachePresent" e (scpu_dcache c) /\ Reads BoolText "itcmPresent" e (scpu_itcm c) /\
  Reads BoolText "dtcmPresent" e (scpu_dtcm c) /\ Reads BoolText "vtorPresent" e (scpu_vtor c) /\
  Must IntText "nvicPrioBits" e (scpu_nvic c) /\ Must BoolText "vendorSystickConfig" e (scpu_systick c) /\
  Reads IntText "deviceNumInterrupts" e (scpu_numint c) /\ Reads IntText "sauNumRegions" e (scpu_saunum c) /\
  Child "sauRegionsConfig" reads_sau e (scpu_sau c).
Definition reads_ev (e : xml) (v : svd_ev) : Prop :=
  Must Is "name" e (sev_name v) /\ Raw "description" e (sev_descr v) /\ Text "value" e (sev_value v) /\
  Reads BoolText "isDefault" e (sev_default v).
Definition reads_dai (e : xml) (d : svd_dai) : Prop :=
  Text "headerEnumName" e (sdai_header d) /\ Children "enumeratedValue" reads_ev e (sdai_evs d).
Definition reads_dim (e : xml) (d : svd_dim) : Prop :=
  Reads IntText "dim" e (sd_dim d) /\ Reads IntText "dimIncrement" e (sd_inc d) /\ Text "dimIndex" e (sd_index d) /\
  Text "dimName" e (sd_name d) /\ Child "dimArrayIndex" reads_dai e (sd_dai d).
Definition reads_range (e : xml) (r : Z * Z) : Prop := Must IntText "minimum" e (fst r) /\ Must IntText "maximum" e (snd r).
Definition reads_wc (e : xml) (w : write_constraint) : Prop :=
  Reads BoolText "writeAsRead" e (wc_write_as_read w) /\ Reads BoolText "useEnumeratedValues" e (wc_use_enum w) /\
  Child "range" reads_range e (wc_range w).
Definition reads_evc (e : xml) (c : svd_evc) : Prop :=
  Attr "derivedFrom" e (sevc_derived c) /\ Text "name" e (sevc_name c) /\ Text "headerEnumName" e (sevc_header c) /\
  Reads (Key enum_usage_value) "usage" e (sevc_usage c) /\ Children "enumeratedValue" reads_ev e (sevc_evs c).
Definition reads_field (e : xml) (f : svd_field) : Prop :=
  Attr "derivedFrom" e (sf_derived f) /\ Must Is "name" e (sf_name f) /\ Raw "description" e (sf_descr f) /\
  Reads IntText "bitOffset" e (sf_bit_offset f) /\ Reads IntText "bitWidth" e (sf_bit_width f) /\ Reads IntText "lsb" e (sf_lsb f) /\
  Reads IntText "msb" e (sf_msb f) /\ Text "bitRange" e (sf_bit_range f) /\ Access e (sf_access f) /\
  Reads (Key mwv_value) "modifiedWriteValues" e (sf_mwv f) /\ Child "writeConstraint" reads_wc e (sf_wc f) /\
  Reads (Key read_action_value) "readAction" e (sf_ra f) /\ Children "enumeratedValues" reads_evc e (sf_evcs f) /\ reads_dim e (sf_dim f).
(** the <name> children of all <sections> children of [e], in document order *)
Definition Sections {A} (section name : string) (R : xml -> A -> Prop) (e : xml) (l : list A) : Prop :=
  exists secs parts, AllNamed section (xml_kids e) secs /\ Forall2 (Children name R) secs parts /\ l = concat parts.
Definition reads_reg (e : xml) (r : svd_reg) : Prop :=
  Attr "derivedFrom" e (sr_derived r) /\ Must Is "name" e (sr_name r) /\ Text "displayName" e (sr_display r) /\
  Raw "description" e (sr_descr r) /\ Text "alternateGroup" e (sr_altgroup r) /\ Text "alternateRegister" e (sr_altreg r) /\
  Must IntText "addressOffset" e (sr_offset r) /\ Reads (Key data_type_value) "dataType" e (sr_dtype r) /\
  Reads (Key mwv_value) "modifiedWriteValues" e (sr_mwv r) /\ Child "writeConstraint" reads_wc e (sr_wc r) /\
  Reads (Key read_action_value) "readAction" e (sr_ra r) /\ Sections "fields" "field" reads_field e (sr_fields r) /\
  reads_dim e (sr_dim r) /\ reads_props e (sr_props r).
Definition reads_clu (e : xml) (c : svd_clu) : Prop :=
  Attr "derivedFrom" e (sc_derived c) /\ Must Is "name" e (sc_name c) /\ Raw "description" e (sc_descr c) /\
  Text "alternateCluster" e (sc_altclu c) /\ Text "headerStructName" e (sc_header c) /\ Must IntText "addressOffset" e (sc_offset c) /\
  reads_dim e (sc_dim c) /\ reads_props e (sc_props c).
(** registers and clusters in document order, everything else is skipped; clusters hold their elements directly *)
Inductive reads_rcs : list xml -> list svd_rc -> Prop :=
| rcs_end : reads_rcs [] []
| rcs_reg e l r rs : Named "register" e -> reads_reg e r -> reads_rcs l rs -> reads_rcs (e :: l) (SReg r :: rs)
| rcs_clu e l c ch rs : Named "cluster" e -> reads_clu e c -> reads_rcs (xml_kids e) ch -> reads_rcs l rs ->
    reads_rcs (e :: l) (SClu c ch :: rs)
| rcs_skip e l rs : ~ Named "register" e -> ~ Named "cluster" e -> reads_rcs l rs -> reads_rcs (e :: l) rs.
(** an interrupt without a value has the value 0 *)
Definition reads_int (e : xml) (i : interrupt) : Prop :=
  Must Is "name" e (int_name i) /\ Raw "description" e (int_descr i) /\ exists o, Reads IntText "value" e o /\ Else 0 o (int_value i).
(** an address block without an offset has the offset 0 *)
Definition reads_ab (e : xml) (a : svd_ab) : Prop :=
  (exists o, Reads IntText "offset" e o /\ Else 0 o (sab_offset a)) /\ Must IntText "size" e (sab_size a) /\
  Must (Key ab_usage_value) "usage" e (sab_usage a) /\ Reads (Key protection_value) "protection" e (sab_prot a).
Definition reads_per (e : xml) (p : svd_periph) : Prop :=
  Attr "derivedFrom" e (sp_derived p) /\ Must Is "name" e (sp_name p) /\ Text "version" e (sp_version p) /\
  Raw "description" e (sp_descr p) /\ Text "alternatePeripheral" e (sp_altper p) /\ Text "groupName" e (sp_group p) /\
  Text "prependToName" e (sp_prepend p) /\ Text "appendToName" e (sp_append p) /\ Text "headerStructName" e (sp_header p) /\
  Raw "disableCondition" e (sp_disable p) /\ Must IntText "baseAddress" e (sp_base p) /\ Children "addressBlock" reads_ab e (sp_abs p) /\
  Children "interrupt" reads_int e (sp_ints p) /\
  (exists secs, AllNamed "registers" (xml_kids e) secs /\ reads_rcs (concat (map xml_kids secs)) (sp_rcs p)) /\
  reads_dim e (sp_dim p) /\ reads_props e (sp_props p).
(** the namespace of the schema location: that of the prefix xs, else that of xsi *)
Definition Prefix (ns : list (string * string)) (p uri : string) : Prop :=
  exists l1 l2, ns = l1 ++ (p, uri) :: l2 /\ ~ In p (map fst l1).
Definition NoPrefix (ns : list (string * string)) (p : string) : Prop := ~ In p (map fst ns).
Definition SchemaNs (ns : list (string * string)) (o : option string) : Prop :=
  (exists u, Prefix ns "xs" u /\ o = Some u) \/
  (NoPrefix ns "xs" /\ exists u, Prefix ns "xsi" u /\ o = Some u) \/ (NoPrefix ns "xs" /\ NoPrefix ns "xsi" /\ o = None).
Definition reads_location (doc : xml_doc) (s : string) : Prop :=
  exists u, SchemaNs (doc_nsmap doc) u /\
    match u with
    | None => s = ""
    | Some uri => exists o, Attr ("{" ++ uri ++ "}noNamespaceSchemaLocation") (doc_root doc) o /\ Else "" o s
    end.
Definition reads_device (doc : xml_doc) (d : svd_device) : Prop :=
  let e := doc_root doc in
  reads_location doc (sdv_xs d) /\ Attr "schemaVersion" e (Some (sdv_schema d)) /\ Text "vendor" e (sdv_vendor d) /\
  Text "vendorID" e (sdv_vendor_id d) /\ Must Is "name" e (sdv_name d) /\ Text "series" e (sdv_series d) /\
  Must Is "version" e (sdv_version d) /\ (exists o, Raw "description" e o /\ Else "" o (sdv_descr d)) /\
  Raw "licenseText" e (sdv_license d) /\ Child "cpu" reads_cpu e (sdv_cpu d) /\ Text "headerSystemFilename" e (sdv_hsf d) /\
  Text "headerDefinitionsPrefix" e (sdv_hdp d) /\ Must IntText "addressUnitBits" e (sdv_aub d) /\ Must IntText "width" e (sdv_width d) /\
  reads_props e (sdv_props d) /\
  exists ps, FirstNamed "peripherals" (xml_kids e) ps /\ Children "peripheral" reads_per ps (sdv_periphs d).

(** ** Legible documents: every text that is there is of the right kind *)
Inductive Within (root : xml) : xml -> Prop :=
| within_root : Within root root
| within_kid e c : Within root e -> In c (xml_kids e) -> Within root c.
Definition int_names : list string :=
  ["size"; "resetValue"; "resetMask"; "base"; "limit"; "nvicPrioBits"; "deviceNumInterrupts"; "sauNumRegions"; "dim"; "dimIncrement";
   "minimum"; "maximum"; "bitOffset"; "bitWidth"; "lsb"; "msb"; "addressOffset"; "offset"; "baseAddress"; "addressUnitBits"; "width"].
Definition bool_names : list string :=
  ["mpuPresent"; "fpuPresent"; "fpuDP"; "dspPresent"; "icachePresent"; "dcachePresent"; "itcmPresent"; "dtcmPresent"; "vtorPresent";
   "vendorSystickConfig"; "isDefault"; "writeAsRead"; "useEnumeratedValues"].
Definition word_names : list string :=
  ["access"; "protection"; "name"; "revision"; "endian"; "description"; "value"; "headerEnumName"; "dimIndex"; "dimName"; "usage"; "bitRange";
   "modifiedWriteValues"; "readAction"; "displayName"; "alternateGroup"; "alternateRegister"; "dataType"; "alternateCluster";
   "headerStructName"; "version"; "alternatePeripheral"; "groupName"; "prependToName"; "appendToName"; "disableCondition"; "vendor";
   "vendorID"; "series"; "licenseText"; "headerSystemFilename"; "headerDefinitionsPrefix"].
Definition simple_names : list string := int_names ++ bool_names ++ word_names.
(** the text [t] of a child [n] of [e] *)
Definition RightKind (e : xml) (n t : string) : Prop :=
  (In n int_names \/ (Named "interrupt" e /\ n = "value") -> exists v, IntText t v) /\
  (In n bool_names -> exists b, BoolText t b) /\
  (n = "protection" -> exists v, Key protection_value t v) /\
  (n = "endian" -> exists v, Key endian_value t v) /\
  (n = "modifiedWriteValues" -> exists v, Key mwv_value t v) /\
  (n = "readAction" -> exists v, Key read_action_value t v) /\
  (n = "dataType" -> exists v, Key data_type_value t v) /\
  (Named "region" e -> n = "access" -> exists v, Key sau_access_value t v) /\
  (Named "addressBlock" e -> n = "usage" -> exists v, Key ab_usage_value t v) /\
  (Named "enumeratedValues" e -> n = "usage" -> exists v, Key enum_usage_value t v) /\
  (Named "cpu" e -> n = "name" -> exists v, CpuText t v).
Definition Legible (root : xml) : Prop :=
  forall e, Within root e ->
    (forall n t, In n simple_names -> Text n e (Some t) -> RightKind e n t) /\
    (forall n, In n simple_names -> exists o, Raw n e o) /\
    (forall t, Attr "enabled" e (Some t) -> exists b, BoolText t b) /\
    (forall t, Attr "protectionWhenDisabled" e (Some t) -> exists v, Key protection_value t v).
