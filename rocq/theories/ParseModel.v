(** * ParseModel: the XML element tree and parse.py

    /repo/src/svdsuite/parse.py. The element tree is what lxml hands to the parser: tag (Clark notation for
    names in a namespace), attributes, the text before the first child, and the children; comments and
    processing instructions are [Other] (they have no string tag, so no search by name finds them).
    Simplifications: source lines and the texts of the messages; the back pointers [parent]. *)
From Verif Require Import Base PyStr PyInt Types.

Inductive xml :=
| Elem (tag : string) (attrs : list (string * string)) (text : option string) (kids : list xml)
| Other.

Definition xml_kids (e : xml) : list xml := match e with Elem _ _ _ ks => ks | Other => [] end.
Definition xml_text (e : xml) : option string := match e with Elem _ _ t _ => t | Other => None end.
Definition xml_attrs (e : xml) : list (string * string) := match e with Elem _ a _ _ => a | Other => [] end.
(** [element.tag == name] *)
Definition has_tag (name : string) (e : xml) : bool := match e with Elem t _ _ _ => String.eqb t name | Other => false end.
(** [parent.findall(name)]: the children with that tag, in document order *)
Definition findall (name : string) (e : xml) : list xml := filter (has_tag name) (xml_kids e).
(** [parent.find(name)]: the first of them *)
Definition xfind (name : string) (e : xml) : option xml := hd_error (findall name e).
(** [element.get(name)] *)
Definition xget (name : string) (e : xml) : option string :=
  option_map snd (find (fun p => String.eqb (fst p) name) (xml_attrs e)).

(** the root element with the prefixes declared on it ([nsmap]) *)
Record xml_doc := mk_doc { doc_nsmap : list (string * string); doc_root : xml }.

(** parse.py:49-65 [_to_bool] of a text (a default is only used for None, which the callers exclude) *)
Definition to_bool (value : string) : M bool :=
  if String.eqb (lower value) "true" then ret true
  else if String.eqb (lower value) "false" then ret false
  else if String.eqb value "1" then ret true
  else if String.eqb value "0" then ret false
  else raise NotImplementedError "_to_bool".

(** parse.py:83-97 [_to_int] of a text *)
Definition to_int (value : string) : M Z :=
  let v := replace "#" "0b" value in
  match py_int 0 v with
  | Some n => ret n
  | None => match py_int 10 v with
            | Some n => ret n
            | None => raise NotImplementedError "_to_int"
            end
  end.

(** [f(x)] when [x] is not None; parse.py:68-72 [_to_none_or_bool], 84-85 in [_to_int] and the
    [if x is not None: x = T.from_str(x)] statements *)
Definition opt_m {A B} (f : A -> M B) (o : option A) : M (option B) :=
  match o with None => ret None | Some x => y <- f x ;; ret (Some y) end.

(** a [from_str] of model/types.py that raises NotImplementedError on an unknown text *)
Definition from_str {A} (f : string -> option A) (s : string) : M A :=
  match f s with Some a => ret a | None => raise NotImplementedError "from_str" end.

Fixpoint last_opt {A} (l : list A) : option A :=
  match l with [] => None | [x] => Some x | _ :: l' => last_opt l' end.

(** stripping with a warning when something was removed: parse.py:165-178, 213-223 *)
Definition strip_warn (what : string) (t : string) : M string :=
  let t' := strip t in
  warn_if (negb (String.eqb t t')) (W_Parser ("stripped " ++ what)) ;;; ret t'.

(** parse.py:136-178 [_parse_element_text] with [optional=True].
    The warning about repeated elements joins their texts, which raises TypeError if one has no text. *)
Definition text_of (name : string) (strip_it : bool) (parent : xml) : M (option string) :=
  let elements := findall name parent in
  (if (1 <? Z.of_nat (List.length elements))
   then raise_if (existsb (fun e => negb (is_some (xml_text e))) elements) TypeError "join" ;;;
        warn (W_Parser ("multiple " ++ name))
   else ret tt) ;;;
  match last_opt elements with
  | None => ret None
  | Some e => match xml_text e with
              | None => ret None
              | Some t => if strip_it then t' <- strip_warn name t ;; ret (Some t') else ret (Some t)
              end
  end.

(** the same with [optional=False] *)
Definition req_text (name : string) (strip_it : bool) (parent : xml) : M string :=
  o <- text_of name strip_it parent ;;
  match o with Some t => ret t | None => raise ParserException ("can't get element " ++ name) end.

(** parse.py:198-223 [_parse_element_attribute] with [optional=True] *)
Definition attr_of (name : string) (e : xml) : M (option string) :=
  match xget name e with
  | None => ret None
  | Some t => t' <- strip_warn name t ;; ret (Some t')
  end.
Definition req_attr (name : string) (e : xml) : M string :=
  o <- attr_of name e ;;
  match o with Some t => ret t | None => raise ParserException ("can't get attribute " ++ name) end.

(** the combinations used by the parser *)
Definition opt_text name e := text_of name true e.
Definition opt_int name e : M (option Z) := t <- text_of name true e ;; opt_m to_int t.
Definition req_int name e : M Z := t <- req_text name true e ;; to_int t.
Definition opt_bool name e : M (option bool) := t <- text_of name true e ;; opt_m to_bool t.

(** parse.py:292-307 [_parse_register_properties] *)
Definition parse_props (e : xml) : M oprops :=
  size <- opt_int "size" e ;;
  acc <- opt_text "access" e ;;
  prot <- opt_text "protection" e ;;
  rv <- opt_int "resetValue" e ;;
  rm <- opt_int "resetMask" e ;;
  acc' <- match acc with None => ret None | Some t => access_from_str t end ;;
  prot' <- opt_m (from_str protection_from_str) prot ;;
  ret (mk_oprops size acc' prot' rv rm).

(** parse.py:388-401 [_parse_sau_regions] (one region) *)
Definition parse_sau_region (e : xml) : M svd_sau_region :=
  en <- attr_of "enabled" e ;;
  en' <- opt_m to_bool en ;;
  name <- attr_of "name" e ;;
  base <- req_int "base" e ;;
  limit <- req_int "limit" e ;;
  acc <- req_text "access" true e ;;
  acc' <- from_str sau_access_from_str acc ;;
  ret (mk_ssr en' name base limit acc').

(** parse.py:360-386 [_parse_sau_regions_config] (element found) *)
Definition parse_sau_config (e : xml) : M svd_sau_config :=
  en <- attr_of "enabled" e ;;
  en' <- opt_m to_bool en ;;
  prot <- attr_of "protectionWhenDisabled" e ;;
  regions <- mapM parse_sau_region (findall "region" e) ;;
  prot' <- opt_m (from_str protection_from_str) prot ;;
  ret (mk_ssc en' prot' regions).

(** parse.py:309-358 [_parse_cpu] (element found) *)
Definition parse_cpu (e : xml) : M svd_cpu :=
  name <- req_text "name" true e ;;
  name' <- from_str cpu_from_str name ;;
  rev <- req_text "revision" true e ;;
  en <- req_text "endian" true e ;;
  en' <- from_str endian_from_str en ;;
  mpu <- opt_bool "mpuPresent" e ;;
  fpu <- opt_bool "fpuPresent" e ;;
  fpudp <- opt_bool "fpuDP" e ;;
  dsp <- opt_bool "dspPresent" e ;;
  icache <- opt_bool "icachePresent" e ;;
  dcache <- opt_bool "dcachePresent" e ;;
  itcm <- opt_bool "itcmPresent" e ;;
  dtcm <- opt_bool "dtcmPresent" e ;;
  vtor <- opt_bool "vtorPresent" e ;;
  nvic <- req_int "nvicPrioBits" e ;;
  st <- req_text "vendorSystickConfig" true e ;;
  st' <- to_bool st ;;
  numint <- opt_int "deviceNumInterrupts" e ;;
  saunum <- opt_int "sauNumRegions" e ;;
  sau <- opt_m parse_sau_config (xfind "sauRegionsConfig" e) ;;
  ret (mk_scpu name' rev en' mpu fpu fpudp dsp icache dcache itcm dtcm vtor nvic st' numint saunum sau).

(** parse.py:808-825 [_parse_enumerated_values] (one value) *)
Definition parse_ev (e : xml) : M svd_ev :=
  name <- req_text "name" true e ;;
  descr <- text_of "description" false e ;;
  value <- opt_text "value" e ;;
  def <- opt_bool "isDefault" e ;;
  ret (mk_sev name descr value def).

(** parse.py:789-806 [parse_dim_array_index] (element found) *)
Definition parse_dai (e : xml) : M svd_dai :=
  h <- opt_text "headerEnumName" e ;;
  evs <- mapM parse_ev (findall "enumeratedValue" e) ;;
  ret (mk_sdai h evs).

(** parse.py:777-787 [_parse_dim_element_group] *)
Definition parse_dim (e : xml) : M svd_dim :=
  dim <- opt_int "dim" e ;;
  inc <- opt_int "dimIncrement" e ;;
  index <- opt_text "dimIndex" e ;;
  name <- opt_text "dimName" e ;;
  dai <- opt_m parse_dai (xfind "dimArrayIndex" e) ;;
  ret (mk_sdim dim inc index name dai).

(** parse.py:645-672 [_parse_write_constraint] (element found) *)
Definition parse_wc (e : xml) : M write_constraint :=
  war <- opt_bool "writeAsRead" e ;;
  uev <- opt_bool "useEnumeratedValues" e ;;
  range <- opt_m (fun r => lo <- req_int "minimum" r ;; hi <- req_int "maximum" r ;; ret (lo, hi)) (xfind "range" e) ;;
  ret (mk_wc war uev range).

(** parse.py:616-643 [_parse_enumerated_value_containers] (one container) *)
Definition parse_evc (e : xml) : M svd_evc :=
  d <- attr_of "derivedFrom" e ;;
  name <- opt_text "name" e ;;
  h <- opt_text "headerEnumName" e ;;
  us <- opt_text "usage" e ;;
  evs <- mapM parse_ev (findall "enumeratedValue" e) ;;
  us' <- opt_m (from_str enum_usage_from_str) us ;;
  ret (mk_sevc name h us' evs d).

(** parse.py:553-612 [_parse_fields] (one field) *)
Definition parse_field (e : xml) : M svd_field :=
  d <- attr_of "derivedFrom" e ;;
  name <- req_text "name" true e ;;
  descr <- text_of "description" false e ;;
  bo <- opt_int "bitOffset" e ;;
  bw <- opt_int "bitWidth" e ;;
  lsb <- opt_int "lsb" e ;;
  msb <- opt_int "msb" e ;;
  br <- opt_text "bitRange" e ;;
  acc <- opt_text "access" e ;;
  mw <- opt_text "modifiedWriteValues" e ;;
  wc <- opt_m parse_wc (xfind "writeConstraint" e) ;;
  ra <- opt_text "readAction" e ;;
  evcs <- mapM parse_evc (findall "enumeratedValues" e) ;;
  dim <- parse_dim e ;;
  acc' <- match acc with None => ret None | Some t => access_from_str t end ;;
  mw' <- opt_m (from_str mwv_from_str) mw ;;
  ra' <- opt_m (from_str read_action_from_str) ra ;;
  ret (mk_sfield dim name descr bo bw lsb msb br acc' mw' wc ra' evcs d).

(** parse.py:545-554 [_parse_fields]: all <fields> sections *)
Definition parse_fields (e : xml) : M (list svd_field) :=
  mapM parse_field (flat_map (findall "field") (findall "fields" e)).

(** parse.py:482-543 [_parse_register] *)
Definition parse_register (e : xml) : M svd_reg :=
  d <- attr_of "derivedFrom" e ;;
  name <- req_text "name" true e ;;
  disp <- opt_text "displayName" e ;;
  descr <- text_of "description" false e ;;
  ag <- opt_text "alternateGroup" e ;;
  ar <- opt_text "alternateRegister" e ;;
  off <- req_int "addressOffset" e ;;
  dt <- opt_text "dataType" e ;;
  mw <- opt_text "modifiedWriteValues" e ;;
  wc <- opt_m parse_wc (xfind "writeConstraint" e) ;;
  ra <- opt_text "readAction" e ;;
  fields <- parse_fields e ;;
  dim <- parse_dim e ;;
  props <- parse_props e ;;
  dt' <- opt_m (from_str data_type_from_str) dt ;;
  mw' <- opt_m (from_str mwv_from_str) mw ;;
  ra' <- opt_m (from_str read_action_from_str) ra ;;
  ret (mk_sreg dim props name disp descr ag ar off dt' mw' wc ra' fields d).

(** parse.py:674-713 [_parse_cluster], with the parser of its children as a parameter *)
Definition parse_cluster_with (children : M (list svd_rc)) (e : xml) : M svd_rc :=
  d <- attr_of "derivedFrom" e ;;
  name <- req_text "name" true e ;;
  descr <- text_of "description" false e ;;
  ac <- opt_text "alternateCluster" e ;;
  h <- opt_text "headerStructName" e ;;
  off <- req_int "addressOffset" e ;;
  rcs <- children ;;
  dim <- parse_dim e ;;
  props <- parse_props e ;;
  ret (SClu (mk_sclu dim props name descr ac h off d) rcs).

(** parse.py:715-731 [_parse_registers_clusters]: one child of the section; none or one element *)
Fixpoint parse_rc (e : xml) : M (list svd_rc) :=
  match e with
  | Elem tag attrs text kids =>
      let all := (fix go l := match l with
                              | [] => ret []
                              | k :: l' => x <- parse_rc k ;; y <- go l' ;; ret (x ++ y)
                              end) in
      if String.eqb tag "register" then r <- parse_register e ;; ret [SReg r]
      else if String.eqb tag "cluster" then c <- parse_cluster_with (all kids) e ;; ret [c]
      else ret []
  | Other => ret []
  end.

Fixpoint parse_rcs (l : list xml) : M (list svd_rc) :=
  match l with
  | [] => ret []
  | k :: l' => x <- parse_rc k ;; y <- parse_rcs l' ;; ret (x ++ y)
  end.

(** parse.py:733-754 [_parse_interrupts] (one interrupt): a missing value becomes 0 *)
Definition parse_interrupt (e : xml) : M interrupt :=
  name <- req_text "name" true e ;;
  descr <- text_of "description" false e ;;
  v <- text_of "value" true e ;;
  value <- match v with
           | Some t => to_int t
           | None => warn (W_Parser "interrupt value") ;;; ret 0
           end ;;
  ret (mk_int name descr value).

(** parse.py:756-775 [_parse_address_blocks] (one block): [... or 0] for the offset *)
Definition parse_ab (e : xml) : M svd_ab :=
  off <- opt_int "offset" e ;;
  size <- req_int "size" e ;;
  us <- req_text "usage" true e ;;
  us' <- from_str ab_usage_from_str us ;;
  prot <- opt_text "protection" e ;;
  prot' <- opt_m (from_str protection_from_str) prot ;;
  ret (mk_sab (default 0 off) size us' prot').

(** parse.py:411-480 [_parse_peripherals] (one peripheral); all <registers> sections are parsed *)
Definition parse_peripheral (e : xml) : M svd_periph :=
  d <- attr_of "derivedFrom" e ;;
  name <- req_text "name" true e ;;
  version <- opt_text "version" e ;;
  descr <- text_of "description" false e ;;
  ap <- opt_text "alternatePeripheral" e ;;
  group <- opt_text "groupName" e ;;
  pre <- opt_text "prependToName" e ;;
  app <- opt_text "appendToName" e ;;
  h <- opt_text "headerStructName" e ;;
  dis <- text_of "disableCondition" false e ;;
  base <- req_int "baseAddress" e ;;
  abs <- mapM parse_ab (findall "addressBlock" e) ;;
  ints <- mapM parse_interrupt (findall "interrupt" e) ;;
  rcs <- parse_rcs (flat_map xml_kids (findall "registers" e)) ;;
  dim <- parse_dim e ;;
  props <- parse_props e ;;
  ret (mk_sper dim props name version descr ap group pre app h dis base abs ints rcs d).

(** parse.py:403-411 [_parse_peripherals]: only the first <peripherals> element is used *)
Definition parse_peripherals (e : xml) : M (list svd_periph) :=
  match xfind "peripherals" e with
  | None => raise ParserException "can't find peripherals element"
  | Some p => mapM parse_peripheral (findall "peripheral" p)
  end.

(** parse.py:226-238 the schema location attribute; KeyError and ParserException are caught *)
Definition parse_schema_location (nsmap : list (string * string)) (e : xml) : M string :=
  let ns := match find (fun p => String.eqb (fst p) "xs") nsmap with
            | Some p => Some (snd p)
            | None => option_map snd (find (fun p => String.eqb (fst p) "xsi") nsmap)
            end in
  let missing := warn (W_Parser "noNamespaceSchemaLocation") ;;; ret "" in
  match ns with
  | None => missing
  | Some uri =>
      o <- attr_of ("{" ++ uri ++ "}noNamespaceSchemaLocation") e ;;
      match o with Some t => ret t | None => missing end
  end.

(** parse.py:225-290 [_parse_device] *)
Definition parse_device (doc : xml_doc) : M svd_device :=
  let e := doc_root doc in
  xs <- parse_schema_location (doc_nsmap doc) e ;;
  schema <- req_attr "schemaVersion" e ;;
  vendor <- opt_text "vendor" e ;;
  vendor_id <- opt_text "vendorID" e ;;
  name <- req_text "name" true e ;;
  series <- opt_text "series" e ;;
  version <- req_text "version" true e ;;
  descr <- text_of "description" false e ;;
  descr' <- match descr with
            | Some t => ret t
            | None => warn (W_Parser "device description") ;;; ret ""
            end ;;
  license <- text_of "licenseText" false e ;;
  cpu <- opt_m parse_cpu (xfind "cpu" e) ;;
  hsf <- opt_text "headerSystemFilename" e ;;
  hdp <- opt_text "headerDefinitionsPrefix" e ;;
  aub <- req_int "addressUnitBits" e ;;
  width <- req_int "width" e ;;
  props <- parse_props e ;;
  ps <- parse_peripherals e ;;
  ret (mk_sdev props xs schema vendor vendor_id name series version descr' license cpu hsf hdp aub width ps).
