(** * MapModel: the peripheral/register memory map.  /repo/src/svdsuite/map.py:22-89, model/map.py. *)
From Verif Require Import Base PyStr Types FinalModel.

(** model/map.py:7-18 MapRegister (the fields copied from the register are represented by the register itself,
    map.py:49-66 copies size, access, ..., fields and [processed]) *)
Record map_reg := mk_mreg { mr_size : Z; mr_access : access; mr_prot : protection; mr_rv : Z; mr_rm : Z;
  mr_name : string; mr_display : option string; mr_descr : option string; mr_address : Z; mr_fields : list field;
  mr_processed : reg }.
(** model/map.py:21-29 MapPeripheral *)
Record map_per := mk_mper { mp_name : string; mp_descr : option string; mp_address : Z; mp_range : Z * Z;
  mp_regs : list map_reg; mp_processed : per }.

(** map.py:49-66 _build_map_register *)
Definition build_map_register (container : Z) (r : reg) : map_reg :=
  let p := r_props r in
  mk_mreg (p_size p) (p_access p) (p_prot p) (p_rv p) (p_rm p) (rb_name (r_b r)) (rb_display (r_b r)) (rb_descr (r_b r))
    (container + rb_offset (r_b r)) (r_fields r) r.

(** map.py:68-78 _build_map_cluster, for one register or cluster *)
Fixpoint build_map_rc (container : Z) (x : rc) : list map_reg :=
  match x with
  | Reg r => [build_map_register container r]
  | Clu c l => flat_map (build_map_rc (container + cb_offset (c_b c))) l
  end.

(** map.py:80-89 _get_allocated_range *)
Definition get_allocated_range (start : Z) (abs : list addr_block) : M (Z * Z) :=
  match isort (zkey_le ab_offset) abs with
  | [] => raise ValueError "Address blocks are empty"
  | (first :: _) as s =>
      let l := last s first in
      ret (start + ab_offset first, start + ab_offset l + ab_size l - 1)
  end.

(** map.py:31-46 _build_map_peripheral *)
Definition build_map_peripheral (p : per) : M map_per :=
  let b := pr_b p in
  range <- get_allocated_range (pb_base b) (pb_abs b) ;;
  ret (mk_mper (pb_name b) (pb_descr b) (pb_base b) range (flat_map (build_map_rc (pb_base b)) (pr_rcs p)) p).

(** map.py:22-29 _build_map *)
Definition build_map (d : device) : M (list map_per) :=
  l <- mapM build_map_peripheral (dv_periphs d) ;;
  ret (isort (zkey_le mp_address) l).
