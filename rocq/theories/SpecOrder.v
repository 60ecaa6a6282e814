(** * SpecOrder: descriptions that differ only in the order in which siblings are written (C53).
    Only the data types and the vocabulary of SpecAccept are used. *)
From Verif Require Import Base PyStr Types ResolveModel SpecDim SpecDeclared SpecExpand SpecAccept PropsDim.

(** the same elements with other children *)
Definition set_evcs (f : svd_field) (l : list svd_evc) : svd_field :=
  mk_sfield (sf_dim f) (sf_name f) (sf_descr f) (sf_bit_offset f) (sf_bit_width f) (sf_lsb f) (sf_msb f) (sf_bit_range f) (sf_access f) (sf_mwv f) (sf_wc f) (sf_ra f)
    l (sf_derived f).
Definition set_fields (r : svd_reg) (l : list svd_field) : svd_reg :=
  mk_sreg (sr_dim r) (sr_props r) (sr_name r) (sr_display r) (sr_descr r) (sr_altgroup r) (sr_altreg r) (sr_offset r) (sr_dtype r) (sr_mwv r) (sr_wc r) (sr_ra r)
    l (sr_derived r).
Definition set_rcs (p : svd_periph) (l : list svd_rc) : svd_periph :=
  mk_sper (sp_dim p) (sp_props p) (sp_name p) (sp_version p) (sp_descr p) (sp_altper p) (sp_group p) (sp_prepend p) (sp_append p) (sp_header p) (sp_disable p)
    (sp_base p) (sp_abs p) (sp_ints p) l (sp_derived p).
Definition set_periphs (d : svd_device) (l : list svd_periph) : svd_device :=
  mk_sdev (sdv_props d) (sdv_xs d) (sdv_schema d) (sdv_vendor d) (sdv_vendor_id d) (sdv_name d) (sdv_series d) (sdv_version d) (sdv_descr d) (sdv_license d)
    (sdv_cpu d) (sdv_hsf d) (sdv_hdp d) (sdv_aub d) (sdv_width d) l.

(** the elements of [l] in some other order, each replaced by one that [R] relates to it *)
Definition Reordered {A B} (R : A -> B -> Prop) (l : list A) (l' : list B) : Prop := exists m, Permutation l m /\ Forall2 R m l'.

(** [Shuffled d d']: [d'] is [d] with the peripherals, the registers and clusters of each peripheral and cluster, the fields of each register
    and the enumerated value containers of each field written in some other order *)
Definition ShufField (f f' : svd_field) : Prop := exists l, Permutation (sf_evcs f) l /\ f' = set_evcs f l.
Definition ShufReg (r r' : svd_reg) : Prop := exists l, Reordered ShufField (sr_fields r) l /\ r' = set_fields r l.
Inductive ShufRc : svd_rc -> svd_rc -> Prop :=
| ShufRc_reg r r' : ShufReg r r' -> ShufRc (SReg r) (SReg r')
| ShufRc_clu c l m l' : Permutation l m -> Forall2 ShufRc m l' -> ShufRc (SClu c l) (SClu c l').
Definition ShufPer (p p' : svd_periph) : Prop := exists l, Reordered ShufRc (sp_rcs p) l /\ p' = set_rcs p l.
Definition Shuffled (d d' : svd_device) : Prop := exists l, Reordered ShufPer (sdv_periphs d) l /\ d' = set_periphs d l.

(** ** Where the claim is made *)
(** a name stated as base is that of a peripheral, and not also that of an instance of an array of peripherals *)
Definition ClearBases (ps : list svd_periph) : Prop :=
  forall p path q, In p ps -> sp_derived p = Some path -> In q ps -> MayBeCalled (PaPer q) path -> sp_name q = path.
