(** * ElemModel: creation of the intermediate elements from a parsed element and an optional base.
    /repo/src/svdsuite/process.py:194-464, 471-484, 136-192. *)
From Verif Require Import Base PyStr PyInt Types DimModel EnumModel.

(** [base.attr if base else None] *)
Definition of_base {A B} (f : A -> option B) (base : option A) : option B := obind base f.
(** or_if_none(parsed.attr, base.attr if base else None) *)
Definition merge {A B} (own : option B) (f : A -> option B) (base : option A) : option B := or_if_none own (of_base f base).

(** the five register properties merged one by one, e.g. process.py:201-205 *)
Definition merge_props (own : oprops) (base : option oprops) : oprops :=
  mk_oprops (merge (op_size own) op_size base) (merge (op_access own) op_access base) (merge (op_prot own) op_prot base)
            (merge (op_rv own) op_rv base) (merge (op_rm own) op_rm base).

(** dim, dim_index, dim_increment merged, e.g. process.py:197-199 *)
Definition merge_dim (own : svd_dim) (base : option idim) : idim :=
  mk_idim (merge (sd_dim own) id_dim base) (merge (sd_inc own) id_inc base) (merge (sd_index own) id_index base).

(** [a if dim_increment is None else a + dim_increment * index] *)
Definition dim_shift (a : Z) (inc : option Z) (index : Z) : Z := match inc with None => a | Some i => a + i * index end.

(** process.py:371-384 _process_address_blocks *)
Definition process_address_blocks (l : list svd_ab) : list addr_block :=
  isort (zkey_le ab_offset)
    (map (fun a => mk_ab (sab_offset a) (sab_size a) (sab_usage a) (Some (default ANY (sab_prot a)))) l).

(** process.py:386-398 _process_interrupts *)
Definition process_interrupts (l : list interrupt) : list interrupt := isort (zkey_le int_value) l.

(** process.py:194-242 _process_peripheral *)
Definition process_peripheral (index : Z) (name : string) (p : svd_periph) (base : option iper) : iper :=
  let d := merge_dim (sp_dim p) (option_map ip_dim base) in
  let own_abs := process_address_blocks (sp_abs p) in
  let bb := option_map ip_b base in
  mk_iper
    (mk_pb name
       (merge (sp_version p) pb_version bb)
       (merge (sp_descr p) pb_descr bb)
       (merge (sp_altper p) pb_altper bb)
       (merge (sp_group p) pb_group bb)
       (merge (sp_prepend p) pb_prepend bb)
       (merge (sp_append p) pb_append bb)
       (sp_header p)
       (merge (sp_disable p) pb_disable bb)
       (dim_shift (sp_base p) (id_inc d) index)
       (match own_abs with [] => match bb with Some b => pb_abs b | None => [] end | _ => own_abs end)
       (process_interrupts (sp_ints p)))
    d (merge_props (sp_props p) (option_map ip_props base)) [].

(** process.py:244-278 _process_cluster *)
Definition process_cluster (index : Z) (name : string) (c : svd_clu) (base : option iclu) : iclu :=
  let d := merge_dim (sc_dim c) (option_map ic_dim base) in
  let bb := option_map ic_b base in
  mk_iclu
    (mk_cb name
       (merge (sc_descr c) cb_descr bb)
       (merge (sc_altclu c) cb_altclu bb)
       (merge (sc_header c) cb_header bb)
       (dim_shift (sc_offset c) (id_inc d) index))
    d (merge_props (sc_props c) (option_map ic_props base)).

(** process.py:280-334 _process_register *)
Definition process_register (index : Z) (name : string) (display : option string) (r : svd_reg) (base : option ireg) : ireg :=
  let d := merge_dim (sr_dim r) (option_map ir_dim base) in
  let bb := option_map ir_b base in
  mk_ireg
    (mk_rb name
       (option_map (fun s => if contains "[%s]" s then replace "[%s]" (str_of_Z index) s else s) display)
       (merge (sr_descr r) rb_descr bb)
       (merge (sr_altgroup r) rb_altgroup bb)
       (merge (sr_altreg r) rb_altreg bb)
       (dim_shift (sr_offset r) (id_inc d) index)
       (merge (sr_dtype r) rb_dtype bb)
       (match sr_mwv r with Some m => m | None => match bb with Some b => rb_mwv b | None => MWV_MODIFY end end)
       (merge (sr_wc r) rb_wc bb)
       (merge (sr_ra r) rb_ra bb))
    d (merge_props (sr_props r) (option_map ir_props base)) [].

(** re.match(r"\[(\d+):(\d+)\]", s), process.py:433 *)
Definition re_bit_range (s : string) : option (string * string) :=
  match s with
  | String c r =>
      if Ascii.eqb c "[" then
        let '(a, r1) := span is_digit r in
        match r1 with
        | String c1 r2 =>
            if Ascii.eqb c1 ":" then
              let '(b, r3) := span is_digit r2 in
              match r3 with
              | String c2 _ => if Ascii.eqb c2 "]" && negb (String.eqb a "") && negb (String.eqb b "") then Some (a, b) else None
              | EmptyString => None
              end
            else None
        | EmptyString => None
        end
      else None
  | EmptyString => None
  end.

(** process.py:419-464 _process_field_msb_lsb: returns (msb, lsb) *)
Definition process_field_msb_lsb (f : svd_field) (base : option field_base) : M (Z * Z) :=
  let bit_offset := merge (sf_bit_offset f) (fun b => Some (fb_lsb b)) base in
  let bit_width := merge (sf_bit_width f) (fun b => Some (fb_msb b - fb_lsb b + 1)) base in
  let lsb := merge (sf_lsb f) (fun b => Some (fb_lsb b)) base in
  let msb := merge (sf_msb f) (fun b => Some (fb_msb b)) base in
  (* (msb, lsb) found so far *)
  let s1 : option (Z * Z) :=
    if is_some (sf_bit_offset f) || is_some (sf_bit_width f) then
      match bit_offset, bit_width with Some o, Some w => Some (o + w - 1, o) | _, _ => None end
    else None in
  let s2 : option (Z * Z) :=
    if is_some (sf_lsb f) || is_some (sf_msb f) then
      match lsb, msb with Some l, Some m => Some (m, l) | _, _ => s1 end
    else s1 in
  s3 <- match sf_bit_range f with
        | None => ret s2
        | Some br =>
            match re_bit_range br with
            | Some (a, b) =>
                match py_int 10 a, py_int 10 b with
                | Some m, Some l =>
                    if m <? l then warn (W_BitRangeSwapped m l) ;;; ret (Some (l, m)) else ret (Some (m, l))
                | _, _ => raise ValueError "int(bit_range)"
                end
            | None => raise ProcessException "Invalid bit range format"
            end
        end ;;
  match s3 with
  | None => raise ProcessException "Field must have bit_offset and bit_width, lsb and msb, or bit_range"
  | Some (m, l) => warn_if (m <? l) (W_FieldMsbLsb (sf_name f) m l) ;;; ret (m, l)
  end.

(** process.py:336-369 _process_field, with 411-417 _process_field_msb_lsb_with_increment *)
Definition process_field (index : Z) (name : string) (f : svd_field) (base : option ifield) : M ifield :=
  let d := merge_dim (sf_dim f) (option_map if_dim base) in
  let bb := option_map if_b base in
  ml <- process_field_msb_lsb f bb ;;
  ret (mk_ifield
    (mk_fb name
       (merge (sf_descr f) fb_descr bb)
       (dim_shift (snd ml) (id_inc d) index)
       (dim_shift (fst ml) (id_inc d) index)
       (match sf_mwv f with Some m => m | None => match bb with Some b => fb_mwv b | None => MWV_MODIFY end end)
       (merge (sf_wc f) fb_wc bb)
       (merge (sf_ra f) fb_ra bb))
    d (or_if_none (sf_access f) (obind base if_access)) []).

(** process.py:136-192 _process_cpu, _process_sau_regions_config, _process_sau_regions *)
Definition process_sau_region (r : svd_sau_region) : sau_region :=
  mk_sau (default true (ssr_enabled r)) (ssr_name r) (ssr_base r) (ssr_limit r) (ssr_access r).
Definition process_sau_config (c : svd_sau_config) : sau_config :=
  mk_sauc (default true (ssc_enabled c)) (default SECURE (ssc_prot c)) (map process_sau_region (ssc_regions c)).
Definition process_cpu (c : svd_cpu) : cpu :=
  mk_cpu (match scpu_name c with CM0_PLUS => CM0PLUS | n => n end) (scpu_rev c) (scpu_endian c)
    (default false (scpu_mpu c)) (default false (scpu_fpu c)) (default false (scpu_fpudp c)) (default false (scpu_dsp c))
    (default false (scpu_icache c)) (default false (scpu_dcache c)) (default false (scpu_itcm c)) (default false (scpu_dtcm c))
    (default true (scpu_vtor c)) (scpu_nvic c) (scpu_systick c) (scpu_numint c) (scpu_saunum c)
    (option_map process_sau_config (scpu_sau c)).

(** process.py:90-95, 108-128: the device level with its defaults *)
Definition process_device_base (d : svd_device) : dev_base :=
  mk_db (mk_props (default 32 (op_size (sdv_props d))) (default READ_WRITE (op_access (sdv_props d)))
           (default ANY (op_prot (sdv_props d))) (default 0 (op_rv (sdv_props d))) (default 4294967295 (op_rm (sdv_props d))))
    (sdv_vendor d) (sdv_vendor_id d) (sdv_name d) (sdv_series d) (sdv_version d) (sdv_descr d) (sdv_license d)
    (option_map process_cpu (sdv_cpu d)) (sdv_hsf d) (sdv_hdp d) (sdv_aub d) (sdv_width d).
