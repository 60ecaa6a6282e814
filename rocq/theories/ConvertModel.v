(** * ConvertModel: processed device -> parsed model.  /repo/src/svdsuite/util/process_parse_model_convert.py. *)
From Verif Require Import Base PyStr PyInt Types FinalModel.

(** no converted element is given dim fields (:165-305), so they keep their default None, model/parse.py:73-79 *)
Definition no_dim : svd_dim := mk_sdim None None None None None.

(** :35-59 process_parse_convert_sau_region, process_parse_convert_sau_regions_config *)
Definition conv_sau_region (r : sau_region) : svd_sau_region :=
  mk_ssr (Some (sau_enabled r)) (sau_name r) (sau_rbase r) (sau_limit r) (sau_racc r).
Definition conv_sau_config (c : sau_config) : svd_sau_config :=
  mk_ssc (Some (sauc_enabled c)) (Some (sauc_prot c)) (map conv_sau_region (sauc_regions c)).
(** :62-91 process_parse_convert_cpu *)
Definition conv_cpu (c : cpu) : svd_cpu :=
  mk_scpu (cpu_nm c) (cpu_rev c) (cpu_endian c) (Some (cpu_mpu c)) (Some (cpu_fpu c)) (Some (cpu_fpudp c)) (Some (cpu_dsp c))
    (Some (cpu_icache c)) (Some (cpu_dcache c)) (Some (cpu_itcm c)) (Some (cpu_dtcm c)) (Some (cpu_vtor c))
    (cpu_nvic c) (cpu_systick c) (cpu_numint c) (cpu_saunum c) (option_map conv_sau_config (cpu_sau c)).
(** :94-101 process_parse_convert_enumerated_value *)
Definition conv_ev (v : ev) : svd_ev := mk_sev (ev_name v) (ev_descr v) (Some (str_of_Z (ev_value v))) (Some false).
(** :119-126 process_parse_convert_address_block *)
Definition conv_ab (a : addr_block) : svd_ab := mk_sab (ab_offset a) (ab_size a) (ab_us a) (ab_prot a).
(** :147-162 process_parse_convert_enumerated_value_container *)
Definition conv_evc (c : evc) : svd_evc :=
  mk_sevc (evc_name c) (evc_header c) (Some (evc_usage c)) (map conv_ev (evc_evs c)) None.
(** :165-189 process_parse_convert_field (interrupts :129-135 and write constraints :138-144 are copied field by field, hence the identity here) *)
Definition conv_field (f : field) : svd_field :=
  let b := f_b f in
  mk_sfield no_dim (fb_name b) (fb_descr b) None None (Some (fb_lsb b)) (Some (fb_msb b)) None
    (Some (f_access f)) (Some (fb_mwv b)) (fb_wc b) (fb_ra b) (map conv_evc (f_evcs f)) None.
(** the five register properties, e.g. :202-206 *)
Definition conv_props (p : props) : oprops :=
  mk_oprops (Some (p_size p)) (Some (p_access p)) (Some (p_prot p)) (Some (p_rv p)) (Some (p_rm p)).
(** :192-221 process_parse_convert_register *)
Definition conv_reg (r : reg) : svd_reg :=
  let b := r_b r in
  mk_sreg no_dim (conv_props (r_props r)) (rb_name b) (rb_display b) (rb_descr b) (rb_altgroup b) (rb_altreg b) (rb_offset b)
    (rb_dtype b) (Some (rb_mwv b)) (rb_wc b) (rb_ra b) (map conv_field (r_fields r)) None.
(** :224-255 process_parse_convert_cluster *)
Definition conv_clu (c : clu) : svd_clu :=
  let b := c_b c in
  mk_sclu no_dim (conv_props (c_props c)) (cb_name b) (cb_descr b) (cb_altclu b) (cb_header b) (cb_offset b) None.
Fixpoint conv_rc (x : rc) : svd_rc :=
  match x with
  | Reg r => SReg (conv_reg r)
  | Clu c l => SClu (conv_clu c) (map conv_rc l)
  end.
(** :258-305 process_parse_convert_peripheral *)
Definition conv_per (p : per) : svd_periph :=
  let b := pr_b p in
  mk_sper no_dim (conv_props (pr_props p)) (pb_name b) (pb_version b) (pb_descr b) (pb_altper b) (pb_group b) (pb_prepend b)
    (pb_append b) (pb_header b) (pb_disable b) (pb_base b) (map conv_ab (pb_abs b)) (pb_ints b) (map conv_rc (pr_rcs p)) None.
(** :308-340 process_parse_convert_device *)
Definition conv_device (d : device) : svd_device :=
  let b := dv_b d in
  mk_sdev (conv_props (db_props b)) "CMSIS-SVD.xsd" "1.3" (db_vendor b) (db_vendor_id b) (db_name b) (db_series b)
    (db_version b) (db_descr b) (db_license b) (option_map conv_cpu (db_cpu b)) (db_hsf b) (db_hdp b) (db_aub b) (db_width b)
    (map conv_per (dv_periphs d)).
