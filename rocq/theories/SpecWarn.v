(** * SpecWarn: what is peculiar about an SVD document (for C62)

    A document can be readable and still not be what its author meant: an element given twice, blanks around a value, an unknown access
    type.  The parser repairs such things and has to say so.  This file says what is peculiar, in terms of the document only: which
    elements of it are read ([ReadIn]), which of their children and attributes are read ([trimmed], [verbatim], [attributes]), and what
    can be wrong with them ([Own]). *)
From Verif Require Import Base Types ParseModel SpecText SpecParse.

(** the kinds of elements *)
Inductive kind :=
| KDevice | KCpu | KSau | KRegion | KPeripheral | KBlock | KInterrupt | KCluster | KRegister | KField | KEnums | KValue | KDimArray
| KConstraint | KRange.

Definition dim_texts : list string := ["dim"; "dimIncrement"; "dimIndex"; "dimName"].
Definition prop_texts : list string := ["size"; "access"; "protection"; "resetValue"; "resetMask"].
(** the children whose text is read without the blanks around it *)
Definition trimmed (k : kind) : list string :=
  match k with
  | KDevice => ["vendor"; "vendorID"; "name"; "series"; "version"; "headerSystemFilename"; "headerDefinitionsPrefix"; "addressUnitBits";
                "width"] ++ prop_texts
  | KCpu => ["name"; "revision"; "endian"; "mpuPresent"; "fpuPresent"; "fpuDP"; "dspPresent"; "icachePresent"; "dcachePresent";
             "itcmPresent"; "dtcmPresent"; "vtorPresent"; "nvicPrioBits"; "vendorSystickConfig"; "deviceNumInterrupts"; "sauNumRegions"]
  | KSau => []
  | KRegion => ["base"; "limit"; "access"]
  | KPeripheral => ["name"; "version"; "alternatePeripheral"; "groupName"; "prependToName"; "appendToName"; "headerStructName";
                    "baseAddress"] ++ dim_texts ++ prop_texts
  | KBlock => ["offset"; "size"; "usage"; "protection"]
  | KInterrupt => ["name"; "value"]
  | KCluster => ["name"; "alternateCluster"; "headerStructName"; "addressOffset"] ++ dim_texts ++ prop_texts
  | KRegister => ["name"; "displayName"; "alternateGroup"; "alternateRegister"; "addressOffset"; "dataType"; "modifiedWriteValues";
                  "readAction"] ++ dim_texts ++ prop_texts
  | KField => ["name"; "bitOffset"; "bitWidth"; "lsb"; "msb"; "bitRange"; "access"; "modifiedWriteValues"; "readAction"] ++ dim_texts
  | KEnums => ["name"; "headerEnumName"; "usage"]
  | KValue => ["name"; "value"; "isDefault"]
  | KDimArray => ["headerEnumName"]
  | KConstraint => ["writeAsRead"; "useEnumeratedValues"]
  | KRange => ["minimum"; "maximum"]
  end%list.
(** the children whose text is read as it is *)
Definition verbatim (k : kind) : list string :=
  match k with
  | KDevice => ["description"; "licenseText"]
  | KPeripheral => ["description"; "disableCondition"]
  | KInterrupt | KCluster | KRegister | KField | KValue => ["description"]
  | _ => []
  end.
(** the attributes that are read (without the blanks around them); that of the schema location is treated apart *)
Definition attributes (k : kind) : list string :=
  match k with
  | KDevice => ["schemaVersion"]
  | KSau => ["enabled"; "protectionWhenDisabled"]
  | KRegion => ["enabled"; "name"]
  | KPeripheral | KCluster | KRegister | KField | KEnums => ["derivedFrom"]
  | _ => []
  end.
(** the kinds whose child access is an access type of SVD *)
Definition has_access (k : kind) : Prop :=
  match k with KDevice | KPeripheral | KCluster | KRegister | KField => True | _ => False end.

(** ** The elements that are read *)
Definition Kid (n : string) (e c : xml) : Prop := In c (xml_kids e) /\ Named n c.
(** [c], read as a [k'], is a part of [e], read as a [k] *)
Inductive Part : kind -> xml -> kind -> xml -> Prop :=
| part_cpu e c : FirstNamed "cpu" (xml_kids e) c -> Part KDevice e KCpu c
| part_per e ps c : FirstNamed "peripherals" (xml_kids e) ps -> Kid "peripheral" ps c -> Part KDevice e KPeripheral c
| part_sau e c : FirstNamed "sauRegionsConfig" (xml_kids e) c -> Part KCpu e KSau c
| part_region e c : Kid "region" e c -> Part KSau e KRegion c
| part_block e c : Kid "addressBlock" e c -> Part KPeripheral e KBlock c
| part_int e c : Kid "interrupt" e c -> Part KPeripheral e KInterrupt c
| part_per_reg e s c : Kid "registers" e s -> Kid "register" s c -> Part KPeripheral e KRegister c
| part_per_clu e s c : Kid "registers" e s -> Kid "cluster" s c -> Part KPeripheral e KCluster c
| part_clu_reg e c : Kid "register" e c -> Part KCluster e KRegister c
| part_clu_clu e c : Kid "cluster" e c -> Part KCluster e KCluster c
| part_field e s c : Kid "fields" e s -> Kid "field" s c -> Part KRegister e KField c
| part_reg_wc e c : FirstNamed "writeConstraint" (xml_kids e) c -> Part KRegister e KConstraint c
| part_field_wc e c : FirstNamed "writeConstraint" (xml_kids e) c -> Part KField e KConstraint c
| part_range e c : FirstNamed "range" (xml_kids e) c -> Part KConstraint e KRange c
| part_enums e c : Kid "enumeratedValues" e c -> Part KField e KEnums c
| part_value e c : Kid "enumeratedValue" e c -> Part KEnums e KValue c
| part_dim k e c : In k [KPeripheral; KCluster; KRegister; KField] -> FirstNamed "dimArrayIndex" (xml_kids e) c -> Part k e KDimArray c
| part_dim_value e c : Kid "enumeratedValue" e c -> Part KDimArray e KValue c.
Inductive ReadIn : kind -> xml -> kind -> xml -> Prop :=
| read_here k e : ReadIn k e k e
| read_part k e k1 e1 k2 e2 : Part k e k1 e1 -> ReadIn k1 e1 k2 e2 -> ReadIn k e k2 e2.

(** ** What can be peculiar *)
(** the child [n] is given more than once *)
Definition Repeated (n : string) (e : xml) : Prop := exists es, AllNamed n (xml_kids e) es /\ (2 <= length es)%nat.
(** blanks at the beginning or the end *)
Definition Padded (t : string) : Prop :=
  (exists c r, t = String c r /\ Space c) \/ (exists c r, t = (r ++ String c "")%string /\ Space c).
(** the last child [n], the one that counts, has blanks around its text *)
Definition PaddedText (n : string) (e : xml) : Prop := exists c t, LastNamed n (xml_kids e) c /\ xml_text c = Some t /\ Padded t.
Definition PaddedAttr (n : string) (e : xml) : Prop :=
  exists v l1 l2, xml_attrs e = l1 ++ (n, v) :: l2 /\ ~ In n (map fst l1) /\ Padded v.
(** no text is given for [n]: no such child, or the last one is empty *)
Definition NoText (n : string) (e : xml) : Prop :=
  NoneNamed n (xml_kids e) \/ exists c, LastNamed n (xml_kids e) c /\ xml_text c = None.

(** [w] is due because of [e] itself, read as a [k] *)
Inductive Own (k : kind) (e : xml) : warning -> Prop :=
| own_repeated n : In n (trimmed k ++ verbatim k) -> Repeated n e -> Own k e (W_Parser ("multiple " ++ n))
| own_padded n : In n (trimmed k) -> PaddedText n e -> Own k e (W_Parser ("stripped " ++ n))
| own_attr n : In n (attributes k) -> PaddedAttr n e -> Own k e (W_Parser ("stripped " ++ n))
| own_access t : has_access k -> Text "access" e (Some t) -> AccessText t None -> Own k e (W_UnknownAccess t)
| own_no_value : k = KInterrupt -> NoText "value" e -> Own k e (W_Parser "interrupt value")
| own_no_descr : k = KDevice -> NoText "description" e -> Own k e (W_Parser "device description").

(** the attribute with the location of the schema: its namespace is that of the prefix xs, or else of the prefix xsi *)
Definition location_name (uri : string) : string := ("{" ++ uri ++ "}noNamespaceSchemaLocation")%string.
Inductive Location (doc : xml_doc) : warning -> Prop :=
| loc_no_prefix : SchemaNs (doc_nsmap doc) None -> Location doc (W_Parser "noNamespaceSchemaLocation")
| loc_missing uri : SchemaNs (doc_nsmap doc) (Some uri) -> ~ In (location_name uri) (map fst (xml_attrs (doc_root doc))) ->
    Location doc (W_Parser "noNamespaceSchemaLocation")
| loc_padded uri : SchemaNs (doc_nsmap doc) (Some uri) -> PaddedAttr (location_name uri) (doc_root doc) ->
    Location doc (W_Parser ("stripped " ++ location_name uri)).

(** [w] is due for the document *)
Definition Peculiar (doc : xml_doc) (w : warning) : Prop :=
  Location doc w \/ exists k e, ReadIn KDevice (doc_root doc) k e /\ Own k e w.
