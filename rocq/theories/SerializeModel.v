(** * SerializeModel: serialize.py, and writing the tree out and reading it in again

    /repo/src/svdsuite/serialize.py builds an lxml element tree; [tostring] writes it and the parser reads it. *)
From Verif Require Import Base PyStr PyInt Types ParseModel.

(** serialize.py:51-54 [_append_element] *)
Definition leaf (name text : string) : xml := Elem name [] (Some text) [].
(** [if x is not None: element.append(self._append_element(name, text=f(x)))] *)
Definition oleaf {A} (name : string) (f : A -> string) (o : option A) : list xml :=
  match o with Some v => [leaf name (f v)] | None => [] end.
(** [if x is not None: element.append(Serializer(x).to_xml())] *)
Definition oelem {A} (f : A -> xml) (o : option A) : list xml := match o with Some v => [f v] | None => [] end.
(** [if x is not None: element.attrib[name] = f(x)] *)
Definition oattr {A} (name : string) (f : A -> string) (o : option A) : list (string * string) :=
  match o with Some v => [(name, f v)] | None => [] end.
Definition sid (s : string) : string := s.
(** [str(b).lower()] *)
Definition bool_text (b : bool) : string := if b then "true" else "false".
(** [element.text = ""] if there is nothing in the element *)
Definition empty_text (b : bool) : option string := if b then Some "" else None.
Definition is_nil {A} (l : list A) : bool := match l with [] => true | _ => false end.

(** serialize.py:61-74 *)
Definition sau_region_xml (r : svd_sau_region) : xml :=
  Elem "region" (oattr "enabled" bool_text (ssr_enabled r) ++ oattr "name" sid (ssr_name r)) None
    [leaf "base" (hex_of_Z (ssr_base r)); leaf "limit" (hex_of_Z (ssr_limit r)); leaf "access" (sau_access_value (ssr_access r))].

(** serialize.py:81-97 *)
Definition sau_config_xml (c : svd_sau_config) : xml :=
  Elem "sauRegionsConfig"
    (oattr "enabled" bool_text (ssc_enabled c) ++ oattr "protectionWhenDisabled" protection_value (ssc_prot c))
    (empty_text (is_nil (ssc_regions c))) (map sau_region_xml (ssc_regions c)).

(** serialize.py:104-150 *)
Definition cpu_xml (c : svd_cpu) : xml :=
  Elem "cpu" [] None
    ([leaf "name" (cpu_value (scpu_name c)); leaf "revision" (scpu_rev c); leaf "endian" (endian_value (scpu_endian c))]
     ++ oleaf "mpuPresent" bool_text (scpu_mpu c)
     ++ oleaf "fpuPresent" bool_text (scpu_fpu c)
     ++ oleaf "fpuDP" bool_text (scpu_fpudp c)
     ++ oleaf "dspPresent" bool_text (scpu_dsp c)
     ++ oleaf "icachePresent" bool_text (scpu_icache c)
     ++ oleaf "dcachePresent" bool_text (scpu_dcache c)
     ++ oleaf "itcmPresent" bool_text (scpu_itcm c)
     ++ oleaf "dtcmPresent" bool_text (scpu_dtcm c)
     ++ oleaf "vtorPresent" bool_text (scpu_vtor c)
     ++ [leaf "nvicPrioBits" (str_of_Z (scpu_nvic c)); leaf "vendorSystickConfig" (bool_text (scpu_systick c))]
     ++ oleaf "deviceNumInterrupts" str_of_Z (scpu_numint c)
     ++ oleaf "sauNumRegions" str_of_Z (scpu_saunum c)
     ++ oelem sau_config_xml (scpu_sau c)).

(** serialize.py:157-171 *)
Definition ev_xml (v : svd_ev) : xml :=
  Elem "enumeratedValue" [] None
    ([leaf "name" (sev_name v)] ++ oleaf "description" sid (sev_descr v) ++ oleaf "value" sid (sev_value v)
     ++ oleaf "isDefault" bool_text (sev_default v)).

(** serialize.py:178-191 *)
Definition dai_xml (d : svd_dai) : xml :=
  Elem "dimArrayIndex" [] (empty_text (negb (is_some (sdai_header d)) && is_nil (sdai_evs d)))
    (oleaf "headerEnumName" sid (sdai_header d) ++ map ev_xml (sdai_evs d)).

(** serialize.py:198-208 *)
Definition ab_xml (b : svd_ab) : xml :=
  Elem "addressBlock" [] None
    ([leaf "offset" (hex_of_Z (sab_offset b)); leaf "size" (hex_of_Z (sab_size b)); leaf "usage" (ab_usage_value (sab_usage b))]
     ++ oleaf "protection" protection_value (sab_prot b)).

(** serialize.py:215-225 *)
Definition interrupt_xml (i : interrupt) : xml :=
  Elem "interrupt" [] None
    ([leaf "name" (int_name i)] ++ oleaf "description" sid (int_descr i) ++ [leaf "value" (str_of_Z (int_value i))]).

(** serialize.py:232-257 *)
Definition wc_xml (w : write_constraint) : xml :=
  Elem "writeConstraint" []
    (empty_text (negb (is_some (wc_write_as_read w)) && negb (is_some (wc_use_enum w)) && negb (is_some (wc_range w))))
    (oleaf "writeAsRead" bool_text (wc_write_as_read w)
     ++ oleaf "useEnumeratedValues" bool_text (wc_use_enum w)
     ++ oelem (fun r => Elem "range" [] None [leaf "minimum" (str_of_Z (fst r)); leaf "maximum" (str_of_Z (snd r))]) (wc_range w)).

(** serialize.py:264-286 *)
Definition evc_xml (c : svd_evc) : xml :=
  Elem "enumeratedValues" (oattr "derivedFrom" sid (sevc_derived c))
    (empty_text (negb (is_some (sevc_name c)) && negb (is_some (sevc_header c)) && negb (is_some (sevc_usage c)) && is_nil (sevc_evs c)))
    (oleaf "name" sid (sevc_name c) ++ oleaf "headerEnumName" sid (sevc_header c)
     ++ oleaf "usage" enum_usage_value (sevc_usage c) ++ map ev_xml (sevc_evs c)).

(** the dim elements: serialize.py:299-312, 358-371, 437-450, 499-512 *)
Definition dim_xml (d : svd_dim) : list xml :=
  oleaf "dim" str_of_Z (sd_dim d) ++ oleaf "dimIncrement" str_of_Z (sd_inc d) ++ oleaf "dimIndex" sid (sd_index d)
  ++ oleaf "dimName" sid (sd_name d) ++ oelem dai_xml (sd_dai d).

(** the register properties: serialize.py:389-402, 464-477, 541-554, 621-634 *)
Definition props_xml (p : oprops) : list xml :=
  oleaf "size" str_of_Z (op_size p) ++ oleaf "access" access_value (op_access p)
  ++ oleaf "protection" protection_value (op_prot p) ++ oleaf "resetValue" hex_of_Z (op_rv p)
  ++ oleaf "resetMask" hex_of_Z (op_rm p).

(** [if x is not None and y is not None:] two elements *)
Definition pair_xml (n1 n2 : string) (a b : option Z) : list xml :=
  match a, b with Some x, Some y => [leaf n1 (str_of_Z x); leaf n2 (str_of_Z y)] | _, _ => [] end.

(** serialize.py:293-345 *)
Definition field_xml (f : svd_field) : xml :=
  Elem "field" (oattr "derivedFrom" sid (sf_derived f)) None
    (dim_xml (sf_dim f) ++ [leaf "name" (sf_name f)] ++ oleaf "description" sid (sf_descr f)
     ++ pair_xml "bitOffset" "bitWidth" (sf_bit_offset f) (sf_bit_width f)
     ++ pair_xml "lsb" "msb" (sf_lsb f) (sf_msb f)
     ++ oleaf "bitRange" sid (sf_bit_range f) ++ oleaf "access" access_value (sf_access f)
     ++ oleaf "modifiedWriteValues" mwv_value (sf_mwv f) ++ oelem wc_xml (sf_wc f)
     ++ oleaf "readAction" read_action_value (sf_ra f) ++ map evc_xml (sf_evcs f)).

(** [if xs: element.append(<section>...)] *)
Definition section (name : string) (l : list xml) : list xml := if is_nil l then [] else [Elem name [] None l].

(** serialize.py:352-424 *)
Definition reg_xml (r : svd_reg) : xml :=
  Elem "register" (oattr "derivedFrom" sid (sr_derived r)) None
    (dim_xml (sr_dim r) ++ [leaf "name" (sr_name r)] ++ oleaf "displayName" sid (sr_display r)
     ++ oleaf "description" sid (sr_descr r) ++ oleaf "alternateGroup" sid (sr_altgroup r)
     ++ oleaf "alternateRegister" sid (sr_altreg r) ++ [leaf "addressOffset" (hex_of_Z (sr_offset r))]
     ++ props_xml (sr_props r) ++ oleaf "dataType" data_type_value (sr_dtype r)
     ++ oleaf "modifiedWriteValues" mwv_value (sr_mwv r) ++ oelem wc_xml (sr_wc r)
     ++ oleaf "readAction" read_action_value (sr_ra r) ++ section "fields" (map field_xml (sr_fields r))).

(** serialize.py:431-486, the cluster without its children *)
Definition clu_xml (c : svd_clu) (children : list xml) : xml :=
  Elem "cluster" (oattr "derivedFrom" sid (sc_derived c)) None
    (dim_xml (sc_dim c) ++ [leaf "name" (sc_name c)] ++ oleaf "description" sid (sc_descr c)
     ++ oleaf "alternateCluster" sid (sc_altclu c) ++ oleaf "headerStructName" sid (sc_header c)
     ++ [leaf "addressOffset" (hex_of_Z (sc_offset c))] ++ props_xml (sc_props c) ++ children).

(** serialize.py:480-484, 565-569: one register or cluster *)
Fixpoint rc_xml (x : svd_rc) : xml :=
  match x with SReg r => reg_xml r | SClu c children => clu_xml c (map rc_xml children) end.

(** serialize.py:493-574 *)
Definition per_xml (p : svd_periph) : xml :=
  Elem "peripheral" (oattr "derivedFrom" sid (sp_derived p)) None
    (dim_xml (sp_dim p) ++ [leaf "name" (sp_name p)] ++ oleaf "version" sid (sp_version p)
     ++ oleaf "description" sid (sp_descr p) ++ oleaf "alternatePeripheral" sid (sp_altper p)
     ++ oleaf "groupName" sid (sp_group p) ++ oleaf "prependToName" sid (sp_prepend p)
     ++ oleaf "appendToName" sid (sp_append p) ++ oleaf "headerStructName" sid (sp_header p)
     ++ oleaf "disableCondition" sid (sp_disable p) ++ [leaf "baseAddress" (hex_of_Z (sp_base p))]
     ++ props_xml (sp_props p) ++ map ab_xml (sp_abs p) ++ map interrupt_xml (sp_ints p)
     ++ section "registers" (map rc_xml (sp_rcs p))).

Definition xs_uri : string := "http://www.w3.org/2001/XMLSchema-instance".

(** serialize.py:581-644 *)
Definition device_xml (d : svd_device) : xml_doc :=
  mk_doc [("xs", xs_uri)]
    (Elem "device" [("{" ++ xs_uri ++ "}noNamespaceSchemaLocation", sdv_xs d); ("schemaVersion", sdv_schema d)]%string None
      (oleaf "vendor" sid (sdv_vendor d) ++ oleaf "vendorID" sid (sdv_vendor_id d) ++ [leaf "name" (sdv_name d)]
       ++ oleaf "series" sid (sdv_series d) ++ [leaf "version" (sdv_version d); leaf "description" (sdv_descr d)]
       ++ oleaf "licenseText" sid (sdv_license d) ++ oelem cpu_xml (sdv_cpu d)
       ++ oleaf "headerSystemFilename" sid (sdv_hsf d) ++ oleaf "headerDefinitionsPrefix" sid (sdv_hdp d)
       ++ [leaf "addressUnitBits" (str_of_Z (sdv_aub d)); leaf "width" (str_of_Z (sdv_width d))]
       ++ props_xml (sdv_props d) ++ section "peripherals" (map per_xml (sdv_periphs d)))).

(** Characters lxml accepts in a text or an attribute: no control characters but tab, line feed and carriage return.
    (U+FFFE, U+FFFF and lone surrogates, also refused by lxml, are not excluded here.) *)
Definition xml_char (c : ascii) : bool :=
  negb (code c <? 32)%N || (code c =? 9)%N || (code c =? 10)%N || (code c =? 13)%N.
Definition xml_string (s : string) : bool := sforallb xml_char s.
Fixpoint xml_legal (e : xml) : bool :=
  match e with
  | Elem _ attrs text kids =>
      forallb (fun p => xml_string (snd p)) attrs
      && match text with Some t => xml_string t | None => true end
      && forallb xml_legal kids
  | Other => true
  end.

(** serialize.py:33-40 [device_to_svd_content] up to [tostring]: lxml raises ValueError when an illegal text is stored.
    (The code raises at the first such text; the result is the same since nothing else can raise.) *)
Definition serialize_device (d : svd_device) : M xml_doc :=
  if xml_legal (doc_root (device_xml d)) then ret (device_xml d) else raise ValueError "lxml".

(** [tostring] followed by [fromstring]: the same tree, except that an empty text is not distinguished from no text and
    that [pretty_print=True] puts white space (here: any text) into elements that have children.
    Trusted: this is how libxml2 writes and reads the trees built by the serializer. *)
Definition norm_text (t : option string) : option string :=
  match t with Some s => if String.eqb s "" then None else Some s | None => None end.
Inductive Reread : xml -> xml -> Prop :=
| reread_leaf t a x : Reread (Elem t a x []) (Elem t a (norm_text x) [])
| reread_node t a x x' k k' ks ks' : Reread k k' -> RereadL ks ks' -> Reread (Elem t a x (k :: ks)) (Elem t a x' (k' :: ks'))
with RereadL : list xml -> list xml -> Prop :=
| rereadl_nil : RereadL [] []
| rereadl_cons k k' ks ks' : Reread k k' -> RereadL ks ks' -> RereadL (k :: ks) (k' :: ks').
Definition RereadDoc (d d' : xml_doc) : Prop := doc_nsmap d' = doc_nsmap d /\ Reread (doc_root d) (doc_root d').
