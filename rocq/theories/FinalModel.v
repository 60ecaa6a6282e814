(** * FinalModel: property inheritance and validation/finalization.
    /repo/src/svdsuite/process.py:506-1088 and the from_intermediate_* constructors of model/process.py. *)
From Verif Require Import Base PyStr PyInt Types.

(** ** _InheritProperties, process.py:506-563 (in-place mutation becomes a new value) *)

(** or_if_none on the five properties, process.py:509-513, 537-541 *)
Definition inherit_oprops (own : oprops) (up : oprops) : oprops :=
  mk_oprops (or_if_none (op_size own) (op_size up)) (or_if_none (op_access own) (op_access up))
            (or_if_none (op_prot own) (op_prot up)) (or_if_none (op_rv own) (op_rv up)) (or_if_none (op_rm own) (op_rm up)).
Definition oprops_of_props (p : props) : oprops :=
  mk_oprops (Some (p_size p)) (Some (p_access p)) (Some (p_prot p)) (Some (p_rv p)) (Some (p_rm p)).

(** process.py:558-563 _inherit_properties_fields *)
Definition inherit_field (acc : option access) (wc : option write_constraint) (f : ifield) : ifield :=
  let b := if_b f in
  mk_ifield (mk_fb (fb_name b) (fb_descr b) (fb_lsb b) (fb_msb b) (fb_mwv b) (or_if_none (fb_wc b) wc) (fb_ra b))
            (if_dim f) (or_if_none (if_access f) acc) (if_evcs f).

(** process.py:524-556 _inherit_properties_registers_clusters *)
Fixpoint inherit_rc (up : oprops) (x : irc) : irc :=
  match x with
  | IReg r =>
      let p := inherit_oprops (ir_props r) up in
      IReg (mk_ireg (ir_b r) (ir_dim r) p (map (inherit_field (op_access p) (rb_wc (ir_b r))) (ir_fields r)))
  | IClu c l =>
      let p := inherit_oprops (ic_props c) up in
      IClu (mk_iclu (ic_b c) (ic_dim c) p) (map (inherit_rc p) l)
  end.

(** process.py:507-522 inherit_properties *)
Definition inherit_per (up : oprops) (p : iper) : iper :=
  let q := inherit_oprops (ip_props p) up in
  mk_iper (ip_b p) (ip_dim p) q (map (inherit_rc q) (ip_rcs p)).
Definition inherit_properties (d : idevice) : idevice :=
  mk_idev (idv_b d) (map (inherit_per (oprops_of_props (db_props (idv_b d)))) (idv_periphs d)).

(** ** Helpers *)

(** process.py:566-570 _to_byte *)
Definition to_byte (v : Z) : M Z :=
  raise_if (negb (v mod 8 =? 0)) ProcessException "Value must be a multiple of 8" ;;; ret (v / 8).
(** process.py:573-585 _get_alignment *)
Definition get_alignment (b : Z) : M Z :=
  if b =? 1 then ret 1 else if b =? 2 then ret 2 else if b =? 4 then ret 4
  else if b =? 8 then ret 4 else if b =? 16 then ret 4
  else raise ProcessException "Unsupported register size".

(** model/process.py:34-44 reg_prop_validator *)
Definition reg_prop_validator (p : oprops) : M props :=
  match op_size p, op_access p, op_prot p, op_rv p, op_rm p with
  | Some s, Some a, Some pr, Some v, Some m => ret (mk_props s a pr v m)
  | _, _, _, _, _ => raise ValueError "size, access, protection, reset_value, and reset_mask must be specified"
  end.

(** ** Enumerated values and fields *)

(** process.py:1067-1088 _validate_and_finalize_enum_values (a negative exponent makes the upper bound negative
    in Python and -1 here: every non-negative value is out of range in both) *)
Fixpoint fin_enum_values (l : list iev) (lsb msb : Z) : M (list ev) :=
  match l with
  | [] => ret []
  | v :: l' =>
      match iev_value v with
      | None => raise ProcessException "Enumerated value must have a value"
      | Some z =>
          if (z <? 0) || (2 ^ (msb - lsb + 1) - 1 <? z) then
            warn (W_EnumOutOfRange (iev_name v) z) ;;; fin_enum_values l' lsb msb
          else
            r <- fin_enum_values l' lsb msb ;;
            ret (mk_ev (iev_name v) (iev_descr v) z :: r)
      end
  end.

(** process.py:1065 sort key (usage.value, len(enumerated_values)) *)
Definition evc_key (e : evc) : string * Z := (enum_usage_value (evc_usage e), Z.of_nat (length (evc_evs e))).
Definition evc_le (x y : evc) : bool := cmp_le (pair_cmp str_cmp Z.compare) (evc_key x) (evc_key y).

(** process.py:1051-1065 _validate_and_finalize_enum_value_containers *)
Definition fin_enum_containers (l : list ievc) (lsb msb : Z) : M (list evc) :=
  r <- mapM (fun c => vs <- fin_enum_values (ievc_evs c) lsb msb ;;
                      ret (mk_evc (ievc_name c) (ievc_header c) (ievc_usage c) vs)) l ;;
  ret (isort evc_le r).

(** model/process.py:248-265 Field.from_intermediate_field *)
Definition field_from (f : ifield) (evcs : list evc) : M field :=
  match if_access f with
  | None => raise ValueError "access must be specified"
  | Some a =>
      let b := if_b f in
      ret (mk_field b a (fb_lsb b) (fb_msb b - fb_lsb b + 1) (fb_msb b, fb_lsb b) evcs)
  end.

Definition is_reserved (name : string) : bool := String.eqb (lower name) "reserved".
Definition f_name (f : field) := fb_name (f_b f).
Definition f_lsb (f : field) := fb_lsb (f_b f).
Definition f_msb (f : field) := fb_msb (f_b f).

(** process.py:985-1010: the loop building the list of fields; [seen] = seen_names *)
Fixpoint fin_fields_loop (seen : list string) (l : list ifield) : M (list field) :=
  match l with
  | [] => ret []
  | f :: l' =>
      let name := fb_name (if_b f) in
      if is_reserved name then warn W_FieldReserved ;;; fin_fields_loop seen l'
      else
        raise_if (mem_str name seen) ProcessException "Duplicate element name found" ;;;
        evcs <- fin_enum_containers (if_evcs f) (fb_lsb (if_b f)) (fb_msb (if_b f)) ;;
        fld <- field_from f evcs ;;
        r <- fin_fields_loop (name :: seen) l' ;;
        ret (fld :: r)
  end.

(** process.py:1027,1035,...: field.lsb <= existing.msb and field.msb >= existing.lsb *)
Definition fields_overlap (f e : field) : bool := (f_lsb f <=? f_msb e) && (f_lsb e <=? f_msb f).

(** process.py:1012-1047: overlap check; [rd]/[wr] = read_fields/write_fields *)
Fixpoint check_fields (rd wr : list field) (size : Z) (l : list field) : M unit :=
  match l with
  | [] => ret tt
  | f :: l' =>
      warn_if (size <=? f_msb f) (W_FieldExceeds (f_name f) (f_msb f) size) ;;;
      match f_access f with
      | READ_ONLY =>
          raise_if (existsb (fields_overlap f) rd) ProcessException "overlap in read access" ;;;
          check_fields (rd ++ [f]) wr size l'
      | WRITE_ONLY =>
          raise_if (existsb (fields_overlap f) wr) ProcessException "overlap in write access" ;;;
          check_fields rd (wr ++ [f]) size l'
      | READ_WRITE | WRITE_ONCE | READ_WRITE_ONCE =>
          raise_if (existsb (fields_overlap f) rd) ProcessException "overlap in read access" ;;;
          raise_if (existsb (fields_overlap f) wr) ProcessException "overlap in write access" ;;;
          check_fields (rd ++ [f]) (wr ++ [f]) size l'
      end
  end.

(** process.py:984-1049 _validate_and_finalize_fields *)
Definition fin_fields (l : list ifield) (reg_size : Z) : M (list field) :=
  r <- fin_fields_loop [] l ;;
  let s := isort (zkey_le f_lsb) r in
  check_fields [] [] reg_size s ;;;
  ret s.

(** ** Registers and clusters *)

Definition rc_name (x : rc) : string := match x with Reg r => rb_name (r_b r) | Clu c _ => cb_name (c_b c) end.
Definition rc_base (x : rc) : Z := match x with Reg r => r_base r | Clu c _ => c_base c end.
Definition rc_offset (x : rc) : Z := match x with Reg r => rb_offset (r_b r) | Clu c _ => cb_offset (c_b c) end.
Definition rc_altgroup (x : rc) : option string := match x with Reg r => rb_altgroup (r_b r) | Clu _ _ => None end.
(** number of bytes occupied: [_to_byte(r.size) if isinstance(r, Register) else r.cluster_size].
    The raise of [_to_byte] cannot happen here: sizes of finalized registers are multiples of 8 (theorem C41). *)
Definition rc_bytes (x : rc) : Z := match x with Reg r => p_size (r_props r) / 8 | Clu c _ => c_size c end.

(** process.py:777-782 sort_key *)
Definition alt_key (a : option string) : Z * string := match a with None => (0, "") | Some s => (1, s) end.
Definition rc_key (x : rc) : Z * ((Z * string) * string) := (rc_base x, (alt_key (rc_altgroup x), rc_name x)).
Definition rc_key_cmp := pair_cmp Z.compare (pair_cmp (pair_cmp Z.compare str_cmp) str_cmp).
Definition rc_le (x y : rc) : bool := cmp_le rc_key_cmp (rc_key x) (rc_key y).

(** process.py:791-795 the name used for duplicate detection and lookup *)
Definition rc_dup_name (x : rc) : string :=
  match x with
  | Reg r => match rb_altgroup (r_b r) with
             | Some (String _ _ as g) => (rb_name (r_b r) ++ "_" ++ g)%string
             | _ => rb_name (r_b r)
             end
  | Clu c _ => cb_name (c_b c)
  end.

(** dictionaries: association lists in insertion order *)
Definition lookup {A} (k : string) (l : list (string * A)) : option A :=
  option_map snd (find (fun p => String.eqb (fst p) k) l).

(** The three [_compute_allowed_alternate_*_names] functions, process.py:750-772, 932-958, 960-982, share one shape:
    [alts] maps each name of the dictionary to its alternate; [strict] = an unknown name raises KeyError
    (peripherals and clusters; registers tolerate it).  [fuel] bounds the number of loop iterations. *)
Fixpoint alternates_loop (fuel : nat) (strict : bool) (alts : list (string * option string))
  (stack : list string) (allowed : list string) : M (list string) :=
  match stack with
  | [] => ret allowed
  | current :: stack' =>      (* stack.pop(): the list head is the top of the stack *)
      match fuel with
      | O => raise OutOfFuel "alternates"
      | S f =>
          if mem_str current allowed then alternates_loop f strict alts stack' allowed
          else
            let allowed' := current :: allowed in
            let children := map fst (filter (fun p => option_eqb String.eqb (snd p) (Some current)) alts) in
            match lookup current alts with
            | None => if strict then raise KeyError current
                      else alternates_loop f strict alts (rev children ++ stack') allowed'
            | Some primary =>
                let st := rev children ++ stack' in
                alternates_loop f strict alts (match primary with Some p => p :: st | None => st end) allowed'
            end
      end
  end.

(** fuel that always suffices (theorem [alternates_fuel_enough]) *)
Definition alternates_fuel (alts : list (string * option string)) : nat :=
  (3 + length alts) * (4 + length alts).

Definition compute_allowed (strict : bool) (alts : list (string * option string)) (start : option string) : M (list string) :=
  match start with
  | None => ret []
  | Some s => alternates_loop (alternates_fuel alts) strict alts [s] []
  end.

Definition reg_lookup (l : list rc) : list (string * reg) :=
  flat_map (fun x => match x with Reg r => [(rc_dup_name x, r)] | Clu _ _ => [] end) l.
Definition clu_lookup (l : list rc) : list (string * clu) :=
  flat_map (fun x => match x with Clu c _ => [(rc_dup_name x, c)] | Reg _ => [] end) l.

(** last byte: process.py:903, 909 *)
Definition rc_end (x : rc) : Z := match x with Reg r => r_base r + p_size (r_props r) / 8 - 1 | Clu c _ => c_end c end.

(** process.py:911-928: comparison of [item] with the earlier intervals *)
Definition check_item (item : rc) (allowed : list string) (alt_of : string -> option string) (intervals : list (Z * string)) : M unit :=
  iterM (fun iv =>
    let '(e, name) := iv in
    if rc_base item <=? e then
      match allowed with
      | [] => warn_if (negb (option_eqb String.eqb (alt_of name) (Some (rc_name item)))) (W_RcOverlap (rc_name item) name)
      | _ => warn_if (negb (mem_str name allowed)) (W_RcOverlap (rc_name item) name)
      end
    else ret tt) intervals.

(** process.py:887-930 _check_registers_clusters_address_overlaps *)
Fixpoint check_rc_overlaps (regs : list (string * reg)) (clus : list (string * clu)) (intervals : list (Z * string))
  (l : list rc) : M unit :=
  match l with
  | [] => ret tt
  | item :: l' =>
      match item with
      | Reg r =>
          match rb_altgroup (r_b r) with
          | Some _ => check_rc_overlaps regs clus intervals l'
          | None =>
              let alts := map (fun p => (fst p, rb_altreg (r_b (snd p)))) regs in
              allowed <- compute_allowed false alts (rb_altreg (r_b r)) ;;
              check_item item allowed (fun n => obind (lookup n regs) (fun x => rb_altreg (r_b x))) intervals ;;;
              check_rc_overlaps regs clus (intervals ++ [(rc_end item, rc_name item)]) l'
          end
      | Clu c _ =>
          let alts := map (fun p => (fst p, cb_altclu (c_b (snd p)))) clus in
          allowed <- compute_allowed true alts (cb_altclu (c_b c)) ;;
          check_item item allowed (fun n => obind (lookup n clus) (fun x => cb_altclu (c_b x))) intervals ;;;
          check_rc_overlaps regs clus (intervals ++ [(rc_end item, rc_name item)]) l'
      end
  end.

(** max(...) of a non-empty list *)
Definition max_list (l : list Z) : Z := match l with [] => 0 | x :: l' => fold_left Z.max l' x end.

(** process.py:786-810: the loop over the children; [acc] = finalized so far (insertion order) *)
Definition fin_loop (f : irc -> M (option rc)) : list irc -> list rc -> M (list rc) :=
  fix go l acc :=
    match l with
    | [] => ret acc
    | x :: l' =>
        r <- f x ;;
        match r with
        | None => go l' acc
        | Some y =>
            raise_if (mem_str (rc_dup_name y) (map rc_dup_name acc)) ProcessException "Duplicate register/cluster name found" ;;;
            go l' (acc ++ [y])
        end
    end.

(** process.py:774-813 _validate_and_finalize_registers_clusters *)
Definition fin_rcs (f : irc -> M (option rc)) (l : list irc) : M (list rc) :=
  r <- fin_loop f l [] ;;
  let s := isort rc_le r in
  check_rc_overlaps (reg_lookup r) (clu_lookup r) [] s ;;;
  ret s.

Definition irc_name (x : irc) : string := match x with IReg r => rb_name (ir_b r) | IClu c _ => cb_name (ic_b c) end.
Definition irc_offset (x : irc) : Z := match x with IReg r => rb_offset (ir_b r) | IClu c _ => cb_offset (ic_b c) end.
Definition irc_props (x : irc) : oprops := match x with IReg r => ir_props r | IClu c _ => ic_props c end.

(** process.py:815-885 _validate_and_finalize_register_cluster *)
Fixpoint fin_rc (x : irc) (parent_base : Z) : M (option rc) :=
  let effective_base := parent_base + irc_offset x in
  match op_size (irc_props x) with
  | None => raise ProcessException "Register/Cluster size is None"
  | Some size =>
      if negb (size mod 8 =? 0) then warn (W_RcSize (irc_name x)) ;;; ret None
      else
        bytes <- to_byte size ;;
        alignment <- get_alignment bytes ;;
        warn_if (negb (irc_offset x mod alignment =? 0)) (W_RcUnaligned (irc_name x)) ;;;
        match x with
        | IClu c l =>
            children <- fin_rcs (fun y => fin_rc y effective_base) l ;;
            match children with
            | [] => warn (W_ClusterEmpty (cb_name (ic_b c))) ;;; ret None
            | _ =>
                let e := max_list (map (fun ch => rc_base ch + rc_bytes ch - 1) children) in
                p <- reg_prop_validator (ic_props c) ;;
                ret (Some (Clu (mk_clu (ic_b c) p effective_base e (e - effective_base + 1)) children))
            end
        | IReg r =>
            if is_reserved (rb_name (ir_b r)) then warn W_RegReserved ;;; ret None
            else
              raise_if (is_some (rb_altreg (ir_b r)) && is_some (rb_altgroup (ir_b r))) ProcessException
                "Register cannot have both alternate_register and alternate_group" ;;;
              fs <- fin_fields (ir_fields r) size ;;
              p <- reg_prop_validator (ir_props r) ;;
              ret (Some (Reg (mk_reg (ir_b r) p fs effective_base)))
        end
  end.

(** ** Peripherals *)

(** process.py:685-694 _validate_address_blocks *)
Fixpoint check_address_blocks (l : list addr_block) : M unit :=
  match l with
  | prev :: ((curr :: _) as l') =>
      warn_if (ab_offset curr <? ab_offset prev + ab_size prev) (W_AddrBlockOverlap (ab_offset curr) (ab_offset prev)) ;;;
      check_address_blocks l'
  | _ => ret tt
  end.

(** process.py:673-683 _extract_registers: sorted at every level of the recursion *)
Definition reg_key (r : reg) : Z * string := (r_base r, rb_name (r_b r)).
Definition reg_le (x y : reg) : bool := cmp_le (pair_cmp Z.compare str_cmp) (reg_key x) (reg_key y).
Fixpoint extract_rc (x : rc) : list reg :=
  match x with
  | Reg r => [r]
  | Clu _ l => isort reg_le (flat_map extract_rc l)
  end.
Definition extract_registers (l : list rc) : list reg := isort reg_le (flat_map extract_rc l).

(** process.py:611-671 _validate_and_finalize_peripheral *)
Definition fin_per (p : iper) : M (option per) :=
  let b := ip_b p in
  rcs <- fin_rcs (fun y => fin_rc y (pb_base b)) (ip_rcs p) ;;
  match rcs with
  | [] => warn (W_PeriphEmpty (pb_name b)) ;;; ret None
  | _ =>
      warn_if (negb (pb_base b mod 4 =? 0)) (W_PeriphUnaligned (pb_name b)) ;;;
      if match op_size (ip_props p) with Some s => negb (s mod 8 =? 0) | None => false end then
        warn (W_PeriphSize (pb_name b)) ;;; ret None
      else
        raise_if (match pb_abs b with [] => true | _ => false end) ProcessException "Peripheral has no address blocks" ;;;
        check_address_blocks (pb_abs b) ;;;
        let end_spec := max_list (map (fun ab => pb_base b + ab_offset ab + ab_size ab - 1) (pb_abs b)) in
        let size_spec := fold_left Z.add (map ab_size (pb_abs b)) 0 in
        let end_eff := max_list (map (fun r => pb_base b + rc_offset r + rc_bytes r - 1) rcs) in
        pp <- reg_prop_validator (ip_props p) ;;
        ret (Some (mk_per b pp end_spec end_eff size_spec (end_eff - pb_base b + 1) rcs (extract_registers rcs)))
  end.

Definition per_name (p : per) := pb_name (pr_b p).
Definition per_key (p : per) : Z * string := (pb_base (pr_b p), pb_name (pr_b p)).
Definition per_le (x y : per) : bool := cmp_le (pair_cmp Z.compare str_cmp) (per_key x) (per_key y).

(** process.py:595-604: loop over the peripherals *)
Fixpoint fin_pers_loop (l : list iper) (acc : list per) : M (list per) :=
  match l with
  | [] => ret acc
  | p :: l' =>
      r <- fin_per p ;;
      match r with
      | None => fin_pers_loop l' acc
      | Some q =>
          raise_if (mem_str (per_name q) (map per_name acc)) ProcessException "Duplicate peripheral name found" ;;;
          fin_pers_loop l' (acc ++ [q])
      end
  end.

(** process.py:705-725 / 727-746: [mkw] builds the warning; a missing or empty alternate never equals the
    (possibly empty) name: [not existing.alternate or existing.alternate != periph.name] *)
Definition check_per_intervals (mkw : string -> string -> warning) (p : per) (allowed : list string)
  (alts : list (string * option string)) (intervals : list (Z * string)) : M unit :=
  iterM (fun iv =>
    let '(e, name) := iv in
    if pb_base (pr_b p) <=? e then
      match allowed with
      | [] => warn_if (match lookup name alts with
                       | Some (Some (String _ _ as a)) => negb (String.eqb a (per_name p))
                       | _ => true end) (mkw (per_name p) name)
      | _ => warn_if (negb (mem_str name allowed)) (mkw (per_name p) name)
      end
    else ret tt) intervals.

(** process.py:696-748 _check_peripheral_address_overlaps *)
Fixpoint check_per_overlaps (alts : list (string * option string)) (eff spec : list (Z * string)) (l : list per) : M unit :=
  match l with
  | [] => ret tt
  | p :: l' =>
      allowed <- compute_allowed true alts (pb_altper (pr_b p)) ;;
      check_per_intervals W_PeriphOverlapEff p allowed alts eff ;;;
      check_per_intervals W_PeriphOverlapSpec p allowed alts spec ;;;
      check_per_overlaps alts (eff ++ [(pr_end_eff p, per_name p)]) (spec ++ [(pr_end p, per_name p)]) l'
  end.

(** process.py:594-608 _validate_and_finalize_peripherals *)
Definition fin_pers (l : list iper) : M (list per) :=
  r <- fin_pers_loop l [] ;;
  let s := isort per_le r in
  check_per_overlaps (map (fun p => (per_name p, pb_altper (pr_b p))) r) [] [] s ;;;
  ret s.

(** process.py:589-592 validate_and_finalize *)
Definition finalize (d : idevice) : M device :=
  ps <- fin_pers (idv_periphs d) ;;
  ret (mk_dev (idv_b d) ps).
