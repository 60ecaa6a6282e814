(** * SpecConvert: when a description shows a processed device, attribute by attribute.  Only the data types are used. *)
From Verif Require Import Base Types SpecText.

Definition shows_props (s : oprops) (p : props) : Prop :=
  op_size s = Some (p_size p) /\ op_access s = Some (p_access p) /\ op_prot s = Some (p_prot p) /\
  op_rv s = Some (p_rv p) /\ op_rm s = Some (p_rm p).
Definition plain (d : svd_dim) : Prop := sd_dim d = None /\ sd_inc d = None /\ sd_index d = None /\ sd_name d = None /\ sd_dai d = None.
(** the value is written as a number that denotes it; no value is a default *)
Definition shows_ev (s : svd_ev) (v : ev) : Prop :=
  sev_name s = ev_name v /\ sev_descr s = ev_descr v /\ (exists t, sev_value s = Some t /\ Numeral t (ev_value v)) /\ sev_default s <> Some true.
Definition shows_evc (s : svd_evc) (c : evc) : Prop :=
  sevc_name s = evc_name c /\ sevc_header s = evc_header c /\ sevc_usage s = Some (evc_usage c) /\ sevc_derived s = None /\
  Forall2 shows_ev (sevc_evs s) (evc_evs c).
Definition shows_field (s : svd_field) (f : field) : Prop :=
  plain (sf_dim s) /\ sf_name s = fb_name (f_b f) /\ sf_descr s = fb_descr (f_b f) /\
  sf_lsb s = Some (fb_lsb (f_b f)) /\ sf_msb s = Some (fb_msb (f_b f)) /\
  sf_bit_offset s = None /\ sf_bit_width s = None /\ sf_bit_range s = None /\
  sf_access s = Some (f_access f) /\ sf_mwv s = Some (fb_mwv (f_b f)) /\ sf_wc s = fb_wc (f_b f) /\ sf_ra s = fb_ra (f_b f) /\
  sf_derived s = None /\ Forall2 shows_evc (sf_evcs s) (f_evcs f).
Definition shows_reg (s : svd_reg) (r : reg) : Prop :=
  plain (sr_dim s) /\ shows_props (sr_props s) (r_props r) /\ sr_name s = rb_name (r_b r) /\ sr_display s = rb_display (r_b r) /\
  sr_descr s = rb_descr (r_b r) /\ sr_altgroup s = rb_altgroup (r_b r) /\ sr_altreg s = rb_altreg (r_b r) /\
  sr_offset s = rb_offset (r_b r) /\ sr_dtype s = rb_dtype (r_b r) /\ sr_mwv s = Some (rb_mwv (r_b r)) /\ sr_wc s = rb_wc (r_b r) /\
  sr_ra s = rb_ra (r_b r) /\ sr_derived s = None /\ Forall2 shows_field (sr_fields s) (r_fields r).
Definition shows_clu (s : svd_clu) (c : clu) : Prop :=
  plain (sc_dim s) /\ shows_props (sc_props s) (c_props c) /\ sc_name s = cb_name (c_b c) /\ sc_descr s = cb_descr (c_b c) /\
  sc_altclu s = cb_altclu (c_b c) /\ sc_header s = cb_header (c_b c) /\ sc_offset s = cb_offset (c_b c) /\ sc_derived s = None.
Inductive shows_rc : svd_rc -> rc -> Prop :=
| Shows_reg : forall s r, shows_reg s r -> shows_rc (SReg s) (Reg r)
| Shows_clu : forall s c ss xs, shows_clu s c -> Forall2 shows_rc ss xs -> shows_rc (SClu s ss) (Clu c xs).
Definition shows_ab (s : svd_ab) (a : addr_block) : Prop :=
  sab_offset s = ab_offset a /\ sab_size s = ab_size a /\ sab_usage s = ab_us a /\ sab_prot s = ab_prot a.
Definition shows_per (s : svd_periph) (p : per) : Prop :=
  let b := pr_b p in
  plain (sp_dim s) /\ shows_props (sp_props s) (pr_props p) /\ sp_name s = pb_name b /\ sp_version s = pb_version b /\
  sp_descr s = pb_descr b /\ sp_altper s = pb_altper b /\ sp_group s = pb_group b /\ sp_prepend s = pb_prepend b /\
  sp_append s = pb_append b /\ sp_header s = pb_header b /\ sp_disable s = pb_disable b /\ sp_base s = pb_base b /\
  Forall2 shows_ab (sp_abs s) (pb_abs b) /\ sp_ints s = pb_ints b /\ sp_derived s = None /\ Forall2 shows_rc (sp_rcs s) (pr_rcs p).
Definition shows_sau_region (s : svd_sau_region) (r : sau_region) : Prop :=
  ssr_enabled s = Some (sau_enabled r) /\ ssr_name s = sau_name r /\ ssr_base s = sau_rbase r /\ ssr_limit s = sau_limit r /\
  ssr_access s = sau_racc r.
Definition shows_sau (s : svd_sau_config) (c : sau_config) : Prop :=
  ssc_enabled s = Some (sauc_enabled c) /\ ssc_prot s = Some (sauc_prot c) /\ Forall2 shows_sau_region (ssc_regions s) (sauc_regions c).
Definition shows_opt {A B} (R : A -> B -> Prop) (a : option A) (b : option B) : Prop :=
  match a, b with Some x, Some y => R x y | None, None => True | _, _ => False end.
Definition shows_cpu (s : svd_cpu) (c : cpu) : Prop :=
  scpu_name s = cpu_nm c /\ scpu_rev s = cpu_rev c /\ scpu_endian s = cpu_endian c /\ scpu_mpu s = Some (cpu_mpu c) /\
  scpu_fpu s = Some (cpu_fpu c) /\ scpu_fpudp s = Some (cpu_fpudp c) /\ scpu_dsp s = Some (cpu_dsp c) /\
  scpu_icache s = Some (cpu_icache c) /\ scpu_dcache s = Some (cpu_dcache c) /\ scpu_itcm s = Some (cpu_itcm c) /\
  scpu_dtcm s = Some (cpu_dtcm c) /\ scpu_vtor s = Some (cpu_vtor c) /\ scpu_nvic s = cpu_nvic c /\ scpu_systick s = cpu_systick c /\
  scpu_numint s = cpu_numint c /\ scpu_saunum s = cpu_saunum c /\ shows_opt shows_sau (scpu_sau s) (cpu_sau c).
Definition shows_device (s : svd_device) (d : device) : Prop :=
  let b := dv_b d in
  shows_props (sdv_props s) (db_props b) /\ sdv_vendor s = db_vendor b /\ sdv_vendor_id s = db_vendor_id b /\ sdv_name s = db_name b /\
  sdv_series s = db_series b /\ sdv_version s = db_version b /\ sdv_descr s = db_descr b /\ sdv_license s = db_license b /\
  shows_opt shows_cpu (sdv_cpu s) (db_cpu b) /\ sdv_hsf s = db_hsf b /\ sdv_hdp s = db_hdp b /\ sdv_aub s = db_aub b /\
  sdv_width s = db_width b /\ Forall2 shows_per (sdv_periphs s) (dv_periphs d).
