(** * Types: attribute enumerations and the three data models.

    /repo/src/svdsuite/model/types.py, model/parse.py, model/process.py.
    Simplifications: the back pointers [parent] and [parsed] are not modelled; records share
    the groups of fields the dataclasses inherit from their base classes. *)
From Verif Require Import Base PyStr.

(** ** model/types.py *)

(** types.py:7-36 CPUNameType *)
Inductive cpu_name :=
| CM0 | CM0PLUS | CM0_PLUS | CM1 | CM3 | CM4 | CM7 | CM23 | CM33 | CM35P | CM52 | CM55 | CM85
| SC000 | SC300 | ARMV8MML | ARMV8MBL | ARMV81MML | CA5 | CA7 | CA8 | CA9 | CA15 | CA17 | CA53 | CA57 | CA72
| SMC1 | CPU_OTHER.
Definition cpu_all := [CM0; CM0PLUS; CM0_PLUS; CM1; CM3; CM4; CM7; CM23; CM33; CM35P; CM52; CM55; CM85;
  SC000; SC300; ARMV8MML; ARMV8MBL; ARMV81MML; CA5; CA7; CA8; CA9; CA15; CA17; CA53; CA57; CA72; SMC1; CPU_OTHER].
(** member names (used by [CPUNameType[...]]) *)
Definition cpu_member (c : cpu_name) : string :=
  match c with
  | CM0 => "CM0" | CM0PLUS => "CM0PLUS" | CM0_PLUS => "CM0_PLUS" | CM1 => "CM1" | CM3 => "CM3" | CM4 => "CM4"
  | CM7 => "CM7" | CM23 => "CM23" | CM33 => "CM33" | CM35P => "CM35P" | CM52 => "CM52" | CM55 => "CM55" | CM85 => "CM85"
  | SC000 => "SC000" | SC300 => "SC300" | ARMV8MML => "ARMV8MML" | ARMV8MBL => "ARMV8MBL" | ARMV81MML => "ARMV81MML"
  | CA5 => "CA5" | CA7 => "CA7" | CA8 => "CA8" | CA9 => "CA9" | CA15 => "CA15" | CA17 => "CA17" | CA53 => "CA53"
  | CA57 => "CA57" | CA72 => "CA72" | SMC1 => "SMC1" | CPU_OTHER => "OTHER"
  end.
(** member values (written by the serializer) *)
Definition cpu_value (c : cpu_name) : string :=
  match c with CM0_PLUS => "CM0+" | CPU_OTHER => "other" | c => cpu_member c end.

Definition enum_find {A} (value : A -> string) (all : list A) (label : string) : option A :=
  find (fun a => String.eqb (value a) label) all.

(** types.py:38-48; [None] = NotImplementedError *)
Definition cpu_from_str (label : string) : option cpu_name :=
  match enum_find cpu_member cpu_all (upper label) with
  | Some c => Some c
  | None => if String.eqb label "CM0+" then Some CM0_PLUS else None
  end.

(** types.py:51-62 EndianType *)
Inductive endian := LITTLE | BIG | SELECTABLE | ENDIAN_OTHER.
Definition endian_all := [LITTLE; BIG; SELECTABLE; ENDIAN_OTHER].
Definition endian_value e := match e with LITTLE => "little" | BIG => "big" | SELECTABLE => "selectable" | ENDIAN_OTHER => "other" end.
Definition endian_from_str := enum_find endian_value endian_all.

(** types.py:65-76 ProtectionStringType *)
Inductive protection := SECURE | NON_SECURE | PRIVILEGED | ANY.
Definition protection_all := [SECURE; NON_SECURE; PRIVILEGED; ANY].
Definition protection_value p := match p with SECURE => "s" | NON_SECURE => "n" | PRIVILEGED => "p" | ANY => "any" end.
Definition protection_from_str := enum_find protection_value protection_all.

(** types.py:79-88 SauAccessType *)
Inductive sau_access := SAU_NSC | SAU_NS.
Definition sau_access_all := [SAU_NSC; SAU_NS].
Definition sau_access_value s := match s with SAU_NSC => "c" | SAU_NS => "n" end.
Definition sau_access_from_str := enum_find sau_access_value sau_access_all.

(** types.py:91-117 AccessType *)
Inductive access := READ_ONLY | WRITE_ONLY | READ_WRITE | WRITE_ONCE | READ_WRITE_ONCE.
Definition access_all := [READ_ONLY; WRITE_ONLY; READ_WRITE; WRITE_ONCE; READ_WRITE_ONCE].
Definition access_value a := match a with READ_ONLY => "read-only" | WRITE_ONLY => "write-only" | READ_WRITE => "read-write"
  | WRITE_ONCE => "writeOnce" | READ_WRITE_ONCE => "read-writeOnce" end.
(** types.py:98-117: case-insensitive, "write"/"read" accepted, otherwise a warning and None *)
Definition access_from_str (label : string) : M (option access) :=
  let l := lower label in
  match enum_find (fun a => lower (access_value a)) access_all l with
  | Some a => ret (Some a)
  | None =>
      if String.eqb l "write" then ret (Some WRITE_ONLY)
      else if String.eqb l "read" then ret (Some READ_ONLY)
      else warn (W_UnknownAccess label) ;;; ret None
  end.

(** types.py:120-130 EnumeratedTokenType *)
Inductive ab_usage := AB_REGISTERS | AB_BUFFER | AB_RESERVED.
Definition ab_usage_all := [AB_REGISTERS; AB_BUFFER; AB_RESERVED].
Definition ab_usage_value u := match u with AB_REGISTERS => "registers" | AB_BUFFER => "buffer" | AB_RESERVED => "reserved" end.
Definition ab_usage_from_str := enum_find ab_usage_value ab_usage_all.

(** types.py:133-156 DataTypeType *)
Inductive data_type :=
| UINT8_T | UINT16_T | UINT32_T | UINT64_T | INT8_T | INT16_T | INT32_T | INT64_T
| UINT8_T_PTR | UINT16_T_PTR | UINT32_T_PTR | UINT64_T_PTR | INT8_T_PTR | INT16_T_PTR | INT32_T_PTR | INT64_T_PTR.
Definition data_type_all := [UINT8_T; UINT16_T; UINT32_T; UINT64_T; INT8_T; INT16_T; INT32_T; INT64_T;
  UINT8_T_PTR; UINT16_T_PTR; UINT32_T_PTR; UINT64_T_PTR; INT8_T_PTR; INT16_T_PTR; INT32_T_PTR; INT64_T_PTR].
Definition data_type_value d := match d with
  | UINT8_T => "uint8_t" | UINT16_T => "uint16_t" | UINT32_T => "uint32_t" | UINT64_T => "uint64_t"
  | INT8_T => "int8_t" | INT16_T => "int16_t" | INT32_T => "int32_t" | INT64_T => "int64_t"
  | UINT8_T_PTR => "uint8_t *" | UINT16_T_PTR => "uint16_t *" | UINT32_T_PTR => "uint32_t *" | UINT64_T_PTR => "uint64_t *"
  | INT8_T_PTR => "int8_t *" | INT16_T_PTR => "int16_t *" | INT32_T_PTR => "int32_t *" | INT64_T_PTR => "int64_t *" end.
Definition data_type_from_str := enum_find data_type_value data_type_all.

(** types.py:159-175 ModifiedWriteValuesType *)
Inductive mwv := ONE_TO_CLEAR | ONE_TO_SET | ONE_TO_TOGGLE | ZERO_TO_CLEAR | ZERO_TO_SET | ZERO_TO_TOGGLE | MWV_CLEAR | MWV_SET | MWV_MODIFY.
Definition mwv_all := [ONE_TO_CLEAR; ONE_TO_SET; ONE_TO_TOGGLE; ZERO_TO_CLEAR; ZERO_TO_SET; ZERO_TO_TOGGLE; MWV_CLEAR; MWV_SET; MWV_MODIFY].
Definition mwv_value m := match m with
  | ONE_TO_CLEAR => "oneToClear" | ONE_TO_SET => "oneToSet" | ONE_TO_TOGGLE => "oneToToggle"
  | ZERO_TO_CLEAR => "zeroToClear" | ZERO_TO_SET => "zeroToSet" | ZERO_TO_TOGGLE => "zeroToToggle"
  | MWV_CLEAR => "clear" | MWV_SET => "set" | MWV_MODIFY => "modify" end.
Definition mwv_from_str := enum_find mwv_value mwv_all.

(** types.py:178-189 ReadActionType *)
Inductive read_action := RA_CLEAR | RA_SET | RA_MODIFY | RA_MODIFY_EXTERNAL.
Definition read_action_all := [RA_CLEAR; RA_SET; RA_MODIFY; RA_MODIFY_EXTERNAL].
Definition read_action_value r := match r with RA_CLEAR => "clear" | RA_SET => "set" | RA_MODIFY => "modify" | RA_MODIFY_EXTERNAL => "modifyExternal" end.
Definition read_action_from_str := enum_find read_action_value read_action_all.

(** types.py:192-201 EnumUsageType *)
Inductive enum_usage := U_READ | U_WRITE | U_READ_WRITE.
Definition enum_usage_all := [U_READ; U_WRITE; U_READ_WRITE].
Definition enum_usage_value u := match u with U_READ => "read" | U_WRITE => "write" | U_READ_WRITE => "read-write" end.
Definition enum_usage_from_str := enum_find enum_usage_value enum_usage_all.
Definition enum_usage_eqb (a b : enum_usage) : bool :=
  match a, b with U_READ, U_READ | U_WRITE, U_WRITE | U_READ_WRITE, U_READ_WRITE => true | _, _ => false end.

(** ** Shared groups *)

(** register properties group, possibly unspecified: model/parse.py:82-88 _SVDRegisterPropertiesGroup and the I* classes *)
Record oprops := mk_oprops { op_size : option Z; op_access : option access; op_prot : option protection;
                             op_rv : option Z; op_rm : option Z }.
(** fully specified: model/process.py (Register, Cluster, Peripheral, Device) *)
Record props := mk_props { p_size : Z; p_access : access; p_prot : protection; p_rv : Z; p_rm : Z }.

(** write constraint: model/parse.py:108-113 SVDWriteConstraint, model/process.py:165-176 WriteConstraint *)
Record write_constraint := mk_wc { wc_write_as_read : option bool; wc_use_enum : option bool; wc_range : option (Z * Z) }.

(** ** The parsed model, model/parse.py *)

(** parse.py:58-64 SVDEnumeratedValue *)
Record svd_ev := mk_sev { sev_name : string; sev_descr : option string; sev_value : option string; sev_default : option bool }.
(** parse.py:67-71 SVDDimArrayIndex *)
Record svd_dai := mk_sdai { sdai_header : option string; sdai_evs : list svd_ev }.
(** parse.py:74-80 _SVDDimElementGroup *)
Record svd_dim := mk_sdim { sd_dim : option Z; sd_inc : option Z; sd_index : option string; sd_name : option string;
                            sd_dai : option svd_dai }.
(** parse.py:116-123 SVDEnumeratedValueContainer *)
Record svd_evc := mk_sevc { sevc_name : option string; sevc_header : option string; sevc_usage : option enum_usage;
                            sevc_evs : list svd_ev; sevc_derived : option string }.
(** parse.py:126-141 SVDField *)
Record svd_field := mk_sfield {
  sf_dim : svd_dim; sf_name : string; sf_descr : option string;
  sf_bit_offset : option Z; sf_bit_width : option Z; sf_lsb : option Z; sf_msb : option Z; sf_bit_range : option string;
  sf_access : option access; sf_mwv : option mwv; sf_wc : option write_constraint; sf_ra : option read_action;
  sf_evcs : list svd_evc; sf_derived : option string }.
(** parse.py:144-158 SVDRegister *)
Record svd_reg := mk_sreg {
  sr_dim : svd_dim; sr_props : oprops; sr_name : string; sr_display : option string; sr_descr : option string;
  sr_altgroup : option string; sr_altreg : option string; sr_offset : Z; sr_dtype : option data_type;
  sr_mwv : option mwv; sr_wc : option write_constraint; sr_ra : option read_action;
  sr_fields : list svd_field; sr_derived : option string }.
(** parse.py:161-170 SVDCluster, without its children *)
Record svd_clu := mk_sclu {
  sc_dim : svd_dim; sc_props : oprops; sc_name : string; sc_descr : option string; sc_altclu : option string;
  sc_header : option string; sc_offset : Z; sc_derived : option string }.
(** SVDRegister | SVDCluster *)
Inductive svd_rc := SReg (r : svd_reg) | SClu (c : svd_clu) (children : list svd_rc).
(** parse.py:91-97 SVDAddressBlock *)
Record svd_ab := mk_sab { sab_offset : Z; sab_size : Z; sab_usage : ab_usage; sab_prot : option protection }.
(** parse.py:100-105 SVDInterrupt *)
Record interrupt := mk_int { int_name : string; int_descr : option string; int_value : Z }.
(** parse.py:173-189 SVDPeripheral *)
Record svd_periph := mk_sper {
  sp_dim : svd_dim; sp_props : oprops; sp_name : string; sp_version : option string; sp_descr : option string;
  sp_altper : option string; sp_group : option string; sp_prepend : option string; sp_append : option string;
  sp_header : option string; sp_disable : option string; sp_base : Z;
  sp_abs : list svd_ab; sp_ints : list interrupt; sp_rcs : list svd_rc; sp_derived : option string }.
(** parse.py:18-25 SVDSauRegion *)
Record svd_sau_region := mk_ssr { ssr_enabled : option bool; ssr_name : option string; ssr_base : Z; ssr_limit : Z; ssr_access : sau_access }.
(** parse.py:28-33 SVDSauRegionsConfig *)
Record svd_sau_config := mk_ssc { ssc_enabled : option bool; ssc_prot : option protection; ssc_regions : list svd_sau_region }.
(** parse.py:36-55 SVDCPU *)
Record svd_cpu := mk_scpu {
  scpu_name : cpu_name; scpu_rev : string; scpu_endian : endian;
  scpu_mpu : option bool; scpu_fpu : option bool; scpu_fpudp : option bool; scpu_dsp : option bool;
  scpu_icache : option bool; scpu_dcache : option bool; scpu_itcm : option bool; scpu_dtcm : option bool;
  scpu_vtor : option bool; scpu_nvic : Z; scpu_systick : bool; scpu_numint : option Z; scpu_saunum : option Z;
  scpu_sau : option svd_sau_config }.
(** parse.py:192-208 SVDDevice *)
Record svd_device := mk_sdev {
  sdv_props : oprops; sdv_xs : string; sdv_schema : string; sdv_vendor : option string; sdv_vendor_id : option string;
  sdv_name : string; sdv_series : option string; sdv_version : string; sdv_descr : string; sdv_license : option string;
  sdv_cpu : option svd_cpu; sdv_hsf : option string; sdv_hdp : option string; sdv_aub : Z; sdv_width : Z;
  sdv_periphs : list svd_periph }.

(** ** The intermediate and the processed model, model/process.py *)

(** IEnumeratedValue, model/process.py:109-112 *)
Record iev := mk_iev { iev_name : string; iev_descr : option string; iev_value : option Z; iev_default : bool }.
(** EnumeratedValue, model/process.py:115-126 *)
Record ev := mk_ev { ev_name : string; ev_descr : option string; ev_value : Z }.
(** IEnumeratedValueContainer, model/process.py:187-189 *)
Record ievc := mk_ievc { ievc_name : option string; ievc_header : option string; ievc_usage : enum_usage; ievc_evs : list iev }.
(** EnumeratedValueContainer, model/process.py:192-214 *)
Record evc := mk_evc { evc_name : option string; evc_header : option string; evc_usage : enum_usage; evc_evs : list ev }.
(** AddressBlock, model/process.py:139-151 *)
Record addr_block := mk_ab { ab_offset : Z; ab_size : Z; ab_us : ab_usage; ab_prot : option protection }.
(** dim, dim_increment, dim_index of the I* classes *)
Record idim := mk_idim { id_dim : option Z; id_inc : option Z; id_index : option string }.
(** FieldBase, model/process.py:217-226 *)
Record field_base := mk_fb { fb_name : string; fb_descr : option string; fb_lsb : Z; fb_msb : Z; fb_mwv : mwv;
                             fb_wc : option write_constraint; fb_ra : option read_action }.
(** IField, model/process.py:229-235 *)
Record ifield := mk_ifield { if_b : field_base; if_dim : idim; if_access : option access; if_evcs : list ievc }.
(** Field, model/process.py:238-265 *)
Record field := mk_field { f_b : field_base; f_access : access; f_bit_offset : Z; f_bit_width : Z; f_bit_range : Z * Z;
                           f_evcs : list evc }.
(** RegisterBase, model/process.py:268-280 *)
Record reg_base := mk_rb { rb_name : string; rb_display : option string; rb_descr : option string; rb_altgroup : option string;
                           rb_altreg : option string; rb_offset : Z; rb_dtype : option data_type; rb_mwv : mwv;
                           rb_wc : option write_constraint; rb_ra : option read_action }.
(** IRegister, model/process.py:283-293 *)
Record ireg := mk_ireg { ir_b : reg_base; ir_dim : idim; ir_props : oprops; ir_fields : list ifield }.
(** Register, model/process.py:296-335 *)
Record reg := mk_reg { r_b : reg_base; r_props : props; r_fields : list field; r_base : Z }.
(** ClusterBase, model/process.py:338-345 *)
Record clu_base := mk_cb { cb_name : string; cb_descr : option string; cb_altclu : option string; cb_header : option string;
                           cb_offset : Z }.
(** ICluster header, model/process.py:348-358 (children in [irc]) *)
Record iclu := mk_iclu { ic_b : clu_base; ic_dim : idim; ic_props : oprops }.
(** IRegister | ICluster *)
Inductive irc := IReg (r : ireg) | IClu (c : iclu) (children : list irc).
(** Cluster header, model/process.py:361-406 (children in [rc]) *)
Record clu := mk_clu { c_b : clu_base; c_props : props; c_base : Z; c_end : Z; c_size : Z }.
(** Register | Cluster *)
Inductive rc := Reg (r : reg) | Clu (c : clu) (children : list rc).
(** PeripheralBase, model/process.py:409-423 *)
Record per_base := mk_pb { pb_name : string; pb_version : option string; pb_descr : option string; pb_altper : option string;
  pb_group : option string; pb_prepend : option string; pb_append : option string; pb_header : option string;
  pb_disable : option string; pb_base : Z; pb_abs : list addr_block; pb_ints : list interrupt }.
(** IPeripheral, model/process.py:426-436 *)
Record iper := mk_iper { ip_b : per_base; ip_dim : idim; ip_props : oprops; ip_rcs : list irc }.
(** Peripheral, model/process.py:439-490 *)
Record per := mk_per { pr_b : per_base; pr_props : props; pr_end : Z; pr_end_eff : Z; pr_size : Z; pr_size_eff : Z;
                       pr_rcs : list rc; pr_regs : list reg }.
(** SauRegion, SauRegionsConfig, CPU: model/process.py:47-99 *)
Record sau_region := mk_sau { sau_enabled : bool; sau_name : option string; sau_rbase : Z; sau_limit : Z; sau_racc : sau_access }.
Record sau_config := mk_sauc { sauc_enabled : bool; sauc_prot : protection; sauc_regions : list sau_region }.
Record cpu := mk_cpu {
  cpu_nm : cpu_name; cpu_rev : string; cpu_endian : endian;
  cpu_mpu : bool; cpu_fpu : bool; cpu_fpudp : bool; cpu_dsp : bool; cpu_icache : bool; cpu_dcache : bool;
  cpu_itcm : bool; cpu_dtcm : bool; cpu_vtor : bool; cpu_nvic : Z; cpu_systick : bool;
  cpu_numint : option Z; cpu_saunum : option Z; cpu_sau : option sau_config }.
(** DeviceBase, model/process.py:493-512 *)
Record dev_base := mk_db { db_props : props; db_vendor : option string; db_vendor_id : option string; db_name : string;
  db_series : option string; db_version : string; db_descr : string; db_license : option string; db_cpu : option cpu;
  db_hsf : option string; db_hdp : option string; db_aub : Z; db_width : Z }.
Record idevice := mk_idev { idv_b : dev_base; idv_periphs : list iper }.   (* model/process.py:515-517 *)
Record device := mk_dev { dv_b : dev_base; dv_periphs : list per }.        (* model/process.py:520-528 *)

(** ** Structural induction principles for the nested trees *)
Section IrcInd.
  Variable P : irc -> Prop.
  Hypothesis Hreg : forall r, P (IReg r).
  Hypothesis Hclu : forall c l, Forall P l -> P (IClu c l).
  Fixpoint irc_ind' (x : irc) : P x :=
    match x with
    | IReg r => Hreg r
    | IClu c l => Hclu c l ((fix go l := match l return Forall P l with
                                         | [] => Forall_nil _
                                         | y :: l' => Forall_cons _ (irc_ind' y) (go l') end) l)
    end.
End IrcInd.
Section RcInd.
  Variable P : rc -> Prop.
  Hypothesis Hreg : forall r, P (Reg r).
  Hypothesis Hclu : forall c l, Forall P l -> P (Clu c l).
  Fixpoint rc_ind' (x : rc) : P x :=
    match x with
    | Reg r => Hreg r
    | Clu c l => Hclu c l ((fix go l := match l return Forall P l with
                                        | [] => Forall_nil _
                                        | y :: l' => Forall_cons _ (rc_ind' y) (go l') end) l)
    end.
End RcInd.
Section SrcInd.
  Variable P : svd_rc -> Prop.
  Hypothesis Hreg : forall r, P (SReg r).
  Hypothesis Hclu : forall c l, Forall P l -> P (SClu c l).
  Fixpoint svd_rc_ind' (x : svd_rc) : P x :=
    match x with
    | SReg r => Hreg r
    | SClu c l => Hclu c l ((fix go l := match l return Forall P l with
                                         | [] => Forall_nil _
                                         | y :: l' => Forall_cons _ (svd_rc_ind' y) (go l') end) l)
    end.
End SrcInd.
