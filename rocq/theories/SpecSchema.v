(** * SpecSchema: the packaged schema /repo/src/svdsuite/schema/1.3.11.xsd (for C57, C58).

    A transcription of the schema file as data, and what it means for an element to be valid against it
    (W3C XML Schema, as far as this schema uses it).  Nothing here refers to the parser or to the serializer, except for the
    type of element trees and [Named] (the tag of an element).
    Simplifications: comments are skipped between elements, but an element with a simple type has none; attributes of the
    namespace xsi (other than the schema location of the root) and [xsi:nil] (the schema makes the device nillable) are not used; what stands inside
    <vendorExtensions> is not looked at (the schema asks for lax validation there); the text after a child element is not part
    of the element trees, so it is not looked at; characters outside ASCII are the bytes of their UTF-8 form. *)
From Verif Require Import Base Types ParseModel SpecText SpecParse.

(** ** Regular expressions (xs:pattern) *)
Inductive re :=
| Class (l : list (ascii * ascii))   (* one character in one of the ranges *)
| Lit (s : string)
| Cat (a b : re)
| Or (a b : re)
| Many (a : re).                     (* zero or more times *)
Inductive Matches : re -> string -> Prop :=
| m_class l c lo hi : In (lo, hi) l -> (N_of_ascii lo <= N_of_ascii c <= N_of_ascii hi)%N -> Matches (Class l) (String c "")
| m_lit s : Matches (Lit s) s
| m_cat a b s t : Matches a s -> Matches b t -> Matches (Cat a b) (s ++ t)
| m_left a b s : Matches a s -> Matches (Or a b) s
| m_right a b s : Matches b s -> Matches (Or a b) s
| m_none a : Matches (Many a) ""
| m_more a s t : Matches a s -> Matches (Many a) t -> Matches (Many a) (s ++ t).
Definition Plus (a : re) : re := Cat a (Many a).
Definition Maybe (a : re) : re := Or (Lit "") a.
Fixpoint Cats (l : list re) : re := match l with [] => Lit "" | [a] => a | a :: l' => Cat a (Cats l') end.
Fixpoint Ors (a : re) (l : list re) : re := match l with [] => a | b :: l' => Or a (Ors b l') end.
Definition Words (a : string) (l : list string) : re := Ors (Lit a) (map Lit l).

Local Open Scope char_scope.
Definition one (c : ascii) : re := Class [(c, c)].
Definition digit : re := Class [("0", "9")].
Definition bindigit : re := Class [("0", "1")].
Definition hexdigit : re := Class [("0", "9"); ("a", "f"); ("A", "F")].
Definition alpha_ : re := Class [("_", "_"); ("A", "Z"); ("a", "z")].
Definition word_ : re := Class [("_", "_"); ("A", "Z"); ("a", "z"); ("0", "9")].
Definition anychar : re := Class [(ascii_of_nat 0, ascii_of_nat 255)].
(** \s: space, tab, line feed, carriage return *)
Definition blank : re := Class [(" ", " "); (ascii_of_nat 9, ascii_of_nat 10); (ascii_of_nat 13, ascii_of_nat 13)].
Local Close Scope char_scope.

(** xs:token and the like: white space is collapsed before the value is looked at *)
Definition is_blank (c : ascii) : bool := existsb (N.eqb (N_of_ascii c)) [9; 10; 13; 32]%N.
Fixpoint words_from (w s : string) : list string :=
  match s with
  | "" => if String.eqb w "" then [] else [w]
  | String c r => if is_blank c then (if String.eqb w "" then words_from "" r else w :: words_from "" r)
                  else words_from (w ++ String c "") r
  end.
Definition collapse (s : string) : string := String.concat " " (words_from "" s).

(** ** Simple types: (white space is collapsed, language) *)

(** names with an optional %s, 1.3.11.xsd:184 *)
Definition dimable : re :=
  Ors (Or (Lit "%s") (Cats [Lit "%s"; alpha_; Many word_]))
      [Cats [alpha_; Many word_; Maybe (Lit "[%s]")]; Cats [alpha_; Many word_; Maybe (Lit "%s"); Many word_]].
(** 1.3.11.xsd:221 *)
Definition scaled : re :=
  Cats [Maybe (one "+"); Maybe (Words "0x" ["0X"; "#"]); Plus hexdigit;
        Maybe (Class [("k", "k"); ("m", "m"); ("g", "g"); ("t", "t"); ("K", "K"); ("M", "M"); ("G", "G"); ("T", "T")]%char)].

Definition packaged (ty : string) : option (bool * re) :=
  let is n := String.eqb ty n in
  if is "stringType" then Some (false, Plus anychar)                                                      (* :91-95 *)
  else if is "cpuNameType" then Some (true,                                                               (* :104-136 *)
    Words "CM0" ["CM0PLUS"; "CM0+"; "CM1"; "CM3"; "CM4"; "CM7"; "CM23"; "CM33"; "CM35P"; "CM52"; "CM55"; "CM85"; "SC000"; "SC300";
                 "ARMV8MML"; "ARMV8MBL"; "ARMV81MML"; "CA5"; "CA7"; "CA8"; "CA9"; "CA15"; "CA17"; "CA53"; "CA57"; "CA72"; "SMC1"; "other"])
  else if is "revisionType" then Some (false, Cats [one "r"; Many digit; one "p"; Many digit])              (* :138-142 *)
  else if is "endianType" then Some (true, Words "little" ["big"; "selectable"; "other"])                  (* :144-151 *)
  else if is "dataTypeType" then Some (true,                                                              (* :153-172 *)
    Words "uint8_t" ["uint16_t"; "uint32_t"; "uint64_t"; "int8_t"; "int16_t"; "int32_t"; "int64_t"; "uint8_t *"; "uint16_t *"; "uint32_t *";
                     "uint64_t *"; "int8_t *"; "int16_t *"; "int32_t *"; "int64_t *"])
  else if is "referenceIdentifierType" then Some (false, Cat dimable (Many (Cat (one ".") dimable)))        (* :175-179 *)
  else if is "dimableIdentifierType" then Some (false, dimable)                                           (* :182-186 *)
  else if is "identifierType" then Some (false, Many word_)                                               (* :189-193 *)
  else if is "protectionStringType" then Some (false, Class [("s", "s"); ("n", "n"); ("p", "p")]%char)     (* :195-202 *)
  else if is "sauAccessType" then Some (false, Class [("c", "c"); ("n", "n")]%char)                        (* :204-210 *)
  else if is "dimIndexType" then Some (false,                                                             (* :213-217 *)
    Ors (Cats [Plus digit; one "-"; Plus digit])
        [Cats [Class [("A", "Z")%char]; one "-"; Class [("A", "Z")%char]];
         Cat (Plus word_) (Plus (Cats [one ","; Many blank; Plus word_]))])
  else if is "scaledNonNegativeInteger" then Some (false, scaled)                                         (* :219-223 *)
  else if is "enumeratedValueDataType" then Some (false,                                                  (* :225-229 *)
    Cat (Maybe (one "+")) (Ors (Cat (Words "0x" ["0X"]) (Plus hexdigit))
      [Plus digit; Cat (Words "#" ["0b"]) (Plus (Class [("0", "0"); ("1", "1"); ("x", "x"); ("X", "X")]%char))]))
  else if is "accessType" then Some (true, Words "read-only" ["write-only"; "read-write"; "writeOnce"; "read-writeOnce"])   (* :231-239 *)
  else if is "modifiedWriteValuesType" then Some (true,                                                   (* :241-253 *)
    Words "oneToClear" ["oneToSet"; "oneToToggle"; "zeroToClear"; "zeroToSet"; "zeroToToggle"; "clear"; "set"; "modify"])
  else if is "readActionType" then Some (true, Words "clear" ["set"; "modify"; "modifyExternal"])           (* :255-262 *)
  else if is "enumUsageType" then Some (true, Words "read" ["write"; "read-write"])                         (* :264-270 *)
  else if is "bitRangeType" then                                                                          (* :272-276 *)
    let number := Cat (Maybe (Class [("0", "6")%char])) digit in
    Some (true, Cats [Lit "["; number; Lit ":"; number; Lit "]"])
  else if is "addressBlockType usage" then Some (true, Words "registers" ["buffer"; "reserved"])            (* :297-304 *)
  (* built in *)
  else if is "xs:string" then Some (false, Many anychar)
  else if is "xs:boolean" then Some (true, Words "true" ["false"; "1"; "0"])
  else if is "xs:integer" then Some (true, Cat (Maybe (Class [("+", "+"); ("-", "-")]%char)) (Plus digit))
  else if is "xs:decimal" then Some (true, Cat (Maybe (Class [("+", "+"); ("-", "-")]%char))
    (Or (Cat (Plus digit) (Maybe (Cat (one ".") (Many digit)))) (Cat (one ".") (Plus digit))))
  else if is "xs:Name" then
    let start := [("_", "_"); (":", ":"); ("A", "Z"); ("a", "z"); (ascii_of_nat 128, ascii_of_nat 255)]%char in
    Some (true, Cat (Class start) (Many (Class (start ++ [("0", "9"); ("-", "-"); (".", ".")]%char))))
  else None.

(** The schema itself, and two restrictions of it.
    [Readable]: numbers have no scale factor, and only the digits of their base; identifiers are not empty; between the words of
    a token there is a single blank.
    [Rewritable]: moreover strings are not blank, clusters have a description with at least one character, and bitOffset is
    followed by bitWidth. *)
Inductive scope := Full | Readable | Rewritable.
Definition plain_number : re :=
  Cat (Maybe (one "+")) (Ors (Plus digit) [Cat (Words "0x" ["0X"]) (Plus hexdigit); Cat (Lit "#") (Plus bindigit)]).
(** at least one character that is not white space *)
Definition nonblank : re :=
  Cats [Many anychar;
        Class [(ascii_of_nat 0, ascii_of_nat 8); (ascii_of_nat 14, ascii_of_nat 27); (ascii_of_nat 33, ascii_of_nat 255)];
        Many anychar].
Definition simple_type (r : scope) (ty : string) : option (bool * re) :=
  match r with
  | Full => packaged ty
  | _ => if String.eqb ty "scaledNonNegativeInteger" then Some (false, plain_number)
         else if String.eqb ty "identifierType" then Some (false, Plus word_)
         else if String.eqb ty "stringType" then match r with Rewritable => Some (false, nonblank) | _ => packaged ty end
         else packaged ty
  end.
(** [s] is [t] with blanks around it *)
Definition Padded (t s : string) : Prop :=
  exists w1 w2, s = (w1 ++ t ++ w2)%string /\ Matches (Many blank) w1 /\ Matches (Many blank) w2.
Definition InSimple (r : scope) (ty s : string) : Prop :=
  match simple_type r ty with
  | Some (false, p) => Matches p s
  | Some (true, p) => Matches p (collapse s) /\ (r <> Full -> Padded (collapse s) s)
  | None => False
  end.

(** ** Complex types *)
Inductive particle :=
| El (name ty : string)
| Seq (l : list particle)
| Alt (l : list particle)
| Occurs (p : particle) (min : nat) (max : option nat)   (* minOccurs, maxOccurs (None: unbounded) *)
| AnyElements.
Definition opt_el (name ty : string) : particle := Occurs (El name ty) 0 (Some 1%nat).
(** attributes: name, type, required *)
Record complex := mk_complex { ct_attrs : list (string * string * bool); ct_content : particle }.

(** 1.3.11.xsd:320-329 registerPropertiesGroup, :350-358 dimElementGroup; the two notations of the bits (:332-345) are
    part of fieldType below *)
Definition props_group : list particle :=
  [opt_el "size" "scaledNonNegativeInteger"; opt_el "access" "accessType"; opt_el "protection" "protectionStringType";
   opt_el "resetValue" "scaledNonNegativeInteger"; opt_el "resetMask" "scaledNonNegativeInteger"].
Definition dim_group : particle :=
  Seq [El "dim" "scaledNonNegativeInteger"; El "dimIncrement" "scaledNonNegativeInteger"; opt_el "dimIndex" "dimIndexType";
       opt_el "dimName" "identifierType"; opt_el "dimArrayIndex" "dimArrayIndexType"].
Definition derived_attr (ty : string) : list (string * string * bool) := [("derivedFrom", ty, false)].

Definition complex_type (r : scope) (ty : string) : option complex :=
  let is n := String.eqb ty n in
  let seq l := Some (mk_complex [] (Seq l)) in
  let int := "scaledNonNegativeInteger" in
  let b n := opt_el n "xs:boolean" in
  if is "writeConstraintType" then Some (mk_complex []                                                     (* :278-291 *)
    (Alt [El "writeAsRead" "xs:boolean"; El "useEnumeratedValues" "xs:boolean"; El "range" "range"]))
  else if is "range" then seq [El "minimum" int; El "maximum" int]
  else if is "addressBlockType" then seq                                                                  (* :293-309 *)
    [El "offset" int; El "size" int; El "usage" "addressBlockType usage"; opt_el "protection" "protectionStringType"]
  else if is "interruptType" then seq [El "name" "stringType"; opt_el "description" "xs:string"; El "value" "xs:integer"]   (* :311-317 *)
  else if is "cpuType" then seq                                                                           (* :360-420 *)
    [El "name" "cpuNameType"; El "revision" "revisionType"; El "endian" "endianType"; b "mpuPresent"; b "fpuPresent"; b "fpuDP";
     b "dspPresent"; b "icachePresent"; b "dcachePresent"; b "itcmPresent"; b "dtcmPresent"; b "vtorPresent"; El "nvicPrioBits" int;
     El "vendorSystickConfig" "xs:boolean"; opt_el "deviceNumInterrupts" int; opt_el "sauNumRegions" int;
     opt_el "sauRegionsConfig" "sauRegionsConfig"]
  else if is "sauRegionsConfig" then Some (mk_complex
    [("enabled", "xs:boolean", false); ("protectionWhenDisabled", "protectionStringType", false)]
    (Seq [Occurs (El "region" "region") 0 None]))
  else if is "region" then Some (mk_complex [("enabled", "xs:boolean", false); ("name", "xs:string", false)]
    (Occurs (Seq [El "base" int; El "limit" int; El "access" "sauAccessType"]) 1 None))
  else if is "enumeratedValueType" then seq                                                               (* :422-435 *)
    [El "name" "identifierType"; opt_el "description" "stringType";
     Alt [El "value" "enumeratedValueDataType"; El "isDefault" "xs:boolean"]]
  else if is "enumerationType" then Some (mk_complex (derived_attr "referenceIdentifierType") (Seq           (* :437-451 *)
    [opt_el "name" "identifierType"; opt_el "headerEnumName" "identifierType"; opt_el "usage" "enumUsageType";
     Occurs (El "enumeratedValue" "enumeratedValueType") 0 None]))
  else if is "dimArrayIndexType" then seq                                                                 (* :453-458 *)
    [opt_el "headerEnumName" "identifierType"; Occurs (El "enumeratedValue" "enumeratedValueType") 1 None]
  else if is "fieldType" then Some (mk_complex (derived_attr "referenceIdentifierType") (Seq                (* :460-491 *)
    [Occurs dim_group 0 (Some 1%nat); El "name" "dimableIdentifierType"; opt_el "description" "stringType";
     Alt [Seq [El "lsb" int; El "msb" int];
          Seq [El "bitOffset" int; match r with Rewritable => El "bitWidth" int | _ => opt_el "bitWidth" int end];
          El "bitRange" "bitRangeType"];
     opt_el "access" "accessType"; opt_el "modifiedWriteValues" "modifiedWriteValuesType";
     opt_el "writeConstraint" "writeConstraintType"; opt_el "readAction" "readActionType";
     Occurs (El "enumeratedValues" "enumerationType") 0 (Some 2%nat)]))
  else if is "fieldsType" then seq [Occurs (El "field" "fieldType") 1 None]                                 (* :493-498 *)
  else if is "registerType" then Some (mk_complex (derived_attr "referenceIdentifierType") (Seq             (* :500-537 *)
    ([Occurs dim_group 0 (Some 1%nat); El "name" "dimableIdentifierType"; opt_el "displayName" "stringType";
      opt_el "description" "stringType";
      Alt [opt_el "alternateGroup" "identifierType"; opt_el "alternateRegister" "dimableIdentifierType"]; El "addressOffset" int]
     ++ [Occurs (Seq props_group) 0 (Some 1%nat)]
     ++ [opt_el "dataType" "dataTypeType"; opt_el "modifiedWriteValues" "modifiedWriteValuesType";
         opt_el "writeConstraint" "writeConstraintType"; opt_el "readAction" "readActionType"; opt_el "fields" "fieldsType"])))
  else if is "clusterType" then Some (mk_complex (derived_attr "referenceIdentifierType") (Seq              (* :540-564 *)
    ([Occurs dim_group 0 (Some 1%nat); El "name" "dimableIdentifierType";
      El "description" (match r with Rewritable => "stringType" | _ => "xs:string" end);
      opt_el "alternateCluster" "dimableIdentifierType"; opt_el "headerStructName" "identifierType"; El "addressOffset" int]
     ++ [Occurs (Seq props_group) 0 (Some 1%nat)]
     ++ [Seq [Occurs (Alt [Occurs (El "register" "registerType") 0 None; Occurs (El "cluster" "clusterType") 0 None]) 1 None]])))
  else if is "registersType" then Some (mk_complex []                                                     (* :567-572 *)
    (Occurs (Alt [El "cluster" "clusterType"; El "register" "registerType"]) 1 None))
  else if is "peripheralType" then Some (mk_complex (derived_attr "dimableIdentifierType") (Seq             (* :574-620 *)
    ([Occurs dim_group 0 (Some 1%nat); El "name" "dimableIdentifierType"; opt_el "version" "stringType"; opt_el "description" "stringType";
      opt_el "alternatePeripheral" "dimableIdentifierType"; opt_el "groupName" "xs:Name"; opt_el "prependToName" "identifierType";
      opt_el "appendToName" "identifierType"; opt_el "headerStructName" "dimableIdentifierType"; opt_el "disableCondition" "stringType";
      El "baseAddress" int]
     ++ [Occurs (Seq props_group) 0 (Some 1%nat)]
     ++ [Occurs (El "addressBlock" "addressBlockType") 0 None; Occurs (El "interrupt" "interruptType") 0 None;
         opt_el "registers" "registersType"])))
  else if is "device" then Some (mk_complex [("schemaVersion", "xs:decimal", true)] (Seq                    (* :625-683 *)
    ([opt_el "vendor" "stringType"; opt_el "vendorID" "identifierType"; El "name" "identifierType"; opt_el "series" "stringType";
      El "version" "stringType"; El "description" "stringType"; opt_el "licenseText" "stringType"; opt_el "cpu" "cpuType";
      opt_el "headerSystemFilename" "identifierType"; opt_el "headerDefinitionsPrefix" "identifierType"; El "addressUnitBits" int;
      El "width" int]
     ++ [Occurs (Seq props_group) 0 (Some 1%nat)]
     ++ [El "peripherals" "peripherals"; opt_el "vendorExtensions" "vendorExtensions"])))
  else if is "peripherals" then seq [Occurs (El "peripheral" "peripheralType") 1 None]
  else if is "vendorExtensions" then Some (mk_complex [] AnyElements)
  else None.

(** ** Validity *)
Definition AttrsValid (r : scope) (decl : list (string * string * bool)) (attrs : list (string * string)) : Prop :=
  NoDup (map fst attrs) /\
  (forall n v, In (n, v) attrs -> exists ty req, In (n, ty, req) decl /\ InSimple r ty v) /\
  (forall n ty, In (n, ty, true) decl -> In n (map fst attrs)).
Definition content (t : option string) : string := match t with Some s => s | None => "" end.
Definition is_element (e : xml) : bool := match e with Elem _ _ _ _ => true | Other => false end.

Inductive Valid (r : scope) : string -> xml -> Prop :=
| valid_simple ty n t : InSimple r ty (content t) -> Valid r ty (Elem n [] t [])
| valid_complex ty ct n attrs t ks :
    complex_type r ty = Some ct -> AttrsValid r (ct_attrs ct) attrs -> Matches (Many blank) (content t) ->
    Children_match r (ct_content ct) (filter is_element ks) -> Valid r ty (Elem n attrs t ks)
with Children_match (r : scope) : particle -> list xml -> Prop :=
| cm_el n ty e : Named n e -> Valid r ty e -> Children_match r (El n ty) [e]
| cm_seq_nil : Children_match r (Seq []) []
| cm_seq_cons p ps l1 l2 : Children_match r p l1 -> Children_match r (Seq ps) l2 -> Children_match r (Seq (p :: ps)) (l1 ++ l2)
| cm_alt p ps l : In p ps -> Children_match r p l -> Children_match r (Alt ps) l
| cm_done p max : Children_match r (Occurs p 0 max) []
| cm_again p min max l1 l2 : max <> Some 0%nat -> Children_match r p l1 ->
    Children_match r (Occurs p (pred min) (option_map pred max)) l2 -> Children_match r (Occurs p min max) (l1 ++ l2)
| cm_any l : Children_match r AnyElements l.

(** A document: the root is a <device>, which may carry the location of the schema *)
Definition xsi : string := "http://www.w3.org/2001/XMLSchema-instance".
Definition location_attr : string := ("{" ++ xsi ++ "}noNamespaceSchemaLocation")%string.
Definition ValidDoc (r : scope) (doc : xml_doc) : Prop :=
  exists attrs t ks, doc_root doc = Elem "device" attrs t ks /\ NoDup (map fst attrs) /\
    Valid r "device" (Elem "device" (filter (fun p => negb (String.eqb (fst p) location_attr)) attrs) t ks).
