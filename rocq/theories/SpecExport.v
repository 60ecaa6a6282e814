(** * SpecExport: the texts of a device description (for C54).

    What a processed device is written out with.  Nothing here refers to the processing, the serializer or the parser. *)
From Verif Require Import Base PyStr Types.

Definition opt_list {A} (o : option A) : list A := match o with Some x => [x] | None => [] end.

(** ** The texts whose surrounding white space does not count: names, display names, groups, headers, indexes, ... *)
Definition texts_evc (c : svd_evc) : list string := opt_list (sevc_name c) ++ opt_list (sevc_header c) ++ map sev_name (sevc_evs c).
Definition texts_field (f : svd_field) : list string := sf_name f :: flat_map texts_evc (sf_evcs f).
Definition texts_reg (r : svd_reg) : list string :=
  sr_name r :: opt_list (sr_display r) ++ opt_list (sr_altgroup r) ++ opt_list (sr_altreg r) ++ flat_map texts_field (sr_fields r).
Definition texts_clu (c : svd_clu) : list string := sc_name c :: opt_list (sc_altclu c) ++ opt_list (sc_header c).
Fixpoint texts_rc (x : svd_rc) : list string :=
  match x with SReg r => texts_reg r | SClu c l => texts_clu c ++ flat_map texts_rc l end.
Definition texts_per (p : svd_periph) : list string :=
  sp_name p :: opt_list (sp_version p) ++ opt_list (sp_altper p) ++ opt_list (sp_group p) ++ opt_list (sp_prepend p) ++
  opt_list (sp_append p) ++ opt_list (sp_header p) ++ map int_name (sp_ints p) ++ flat_map texts_rc (sp_rcs p).
Definition texts_device (d : svd_device) : list string :=
  sdv_name d :: sdv_version d :: opt_list (sdv_vendor d) ++ opt_list (sdv_vendor_id d) ++ opt_list (sdv_series d) ++
  opt_list (sdv_hsf d) ++ opt_list (sdv_hdp d) ++ map scpu_rev (opt_list (sdv_cpu d)) ++ flat_map texts_per (sdv_periphs d).

(** ** The texts that are kept as they are: descriptions, the license, conditions *)
Definition raws_evc (c : svd_evc) : list string := flat_map (fun v => opt_list (sev_descr v)) (sevc_evs c).
Definition raws_field (f : svd_field) : list string := opt_list (sf_descr f) ++ flat_map raws_evc (sf_evcs f).
Definition raws_reg (r : svd_reg) : list string := opt_list (sr_descr r) ++ flat_map raws_field (sr_fields r).
Fixpoint raws_rc (x : svd_rc) : list string :=
  match x with SReg r => raws_reg r | SClu c l => opt_list (sc_descr c) ++ flat_map raws_rc l end.
Definition raws_per (p : svd_periph) : list string :=
  opt_list (sp_descr p) ++ opt_list (sp_disable p) ++ flat_map (fun i => opt_list (int_descr i)) (sp_ints p) ++ flat_map raws_rc (sp_rcs p).
Definition raws_device (d : svd_device) : list string := opt_list (sdv_license d) ++ flat_map raws_per (sdv_periphs d).

(** ** The names of the regions of the security attribution unit (attributes) *)
Definition sau_names (d : svd_device) : list string :=
  flat_map (fun c => flat_map (fun s => flat_map (fun r => opt_list (ssr_name r)) (ssc_regions s)) (opt_list (scpu_sau c)))
    (opt_list (sdv_cpu d)).

(** ** The dimIndex texts *)
Definition indexes_reg (r : svd_reg) : list string := opt_list (sd_index (sr_dim r)) ++ flat_map (fun f => opt_list (sd_index (sf_dim f))) (sr_fields r).
Fixpoint indexes_rc (x : svd_rc) : list string :=
  match x with SReg r => indexes_reg r | SClu c l => opt_list (sd_index (sc_dim c)) ++ flat_map indexes_rc l end.
Definition indexes_per (p : svd_periph) : list string := opt_list (sd_index (sp_dim p)) ++ flat_map indexes_rc (sp_rcs p).
Definition indexes_device (d : svd_device) : list string := flat_map indexes_per (sdv_periphs d).

(** A description whose texts carry no white space at either end (every description that was read from a file, see C54). *)
Record Trimmed (d : svd_device) : Prop := {
  tr_texts : Forall (fun s => strip s = s) (texts_device d);
  tr_indexes : Forall (fun s => strip s = s) (indexes_device d);
  tr_sau : Forall (fun s => strip s = s) (sau_names d) }.
(** A description without empty texts: neither an element with an empty text, nor an empty part in a comma separated dimIndex. *)
Record Filled (d : svd_device) : Prop := {
  fl_texts : Forall (fun s => s <> "") (texts_device d);
  fl_raws : Forall (fun s => s <> "") (raws_device d);
  fl_indexes : Forall (fun s => s <> "" /\ ~ In "" (split_on "," (remove_spaces s))) (indexes_device d) }.
