(** * LinkModel: the objects of the parsed model and their back pointers [parent]

    The other models keep values; here the objects themselves are modelled: a store of objects, each with its scalar attributes (the value it stands
    for), the references it holds to other objects and its attribute [parent] (model/parse.py; default None).  [parse_*] replays the constructor calls
    and the assignments to [parent] of parse.py for the values that have been read (what is read: ParseModel.v), [convert_*] those of
    util/process_parse_model_convert.py for a processed device (what is converted: ConvertModel.v).  Arguments of a constructor call are evaluated
    before it, in the order in which they are written.  Simplification: the references an object holds are one list, in the order of the fields of the class. *)
From Verif Require Import Base PyStr PyInt Types FinalModel ConvertModel.

Inductive thing :=
| TDevice (d : svd_device) | TCpu (c : svd_cpu) | TSau (c : svd_sau_config) | TRegion (r : svd_sau_region) | TPeripheral (p : svd_periph)
| TBlock (b : svd_ab) | TInterrupt (i : interrupt) | TCluster (c : svd_clu) | TRegister (r : svd_reg) | TField (f : svd_field)
| TEnums (c : svd_evc) | TValue (v : svd_ev) | TDimArray (d : svd_dai) | TConstraint (w : write_constraint).
Record obj := mk_obj { o_thing : thing; o_parent : option nat; o_parts : list nat }.
Definition store : Type := list obj.

Definition H (A : Type) : Type := store -> store * A.
Definition hret {A} (a : A) : H A := fun h => (h, a).
Definition hbind {A B} (m : H A) (f : A -> H B) : H B := fun h => let '(h1, a) := m h in f a h1.
Notation "x <~ m ;; k" := (hbind m (fun x => k)) (at level 61, m at next level, right associativity).
Notation "m ;~ k" := (hbind m (fun _ => k)) (at level 61, right associativity).

(** a constructor call: a new object without parent (model/parse.py: [parent: ... = None]) *)
Definition new (t : thing) (parts : list nat) : H nat := fun h => (h ++ [mk_obj t None parts], List.length h).
(** [x.parent = p] *)
Fixpoint upd (c : nat) (p : nat) (h : store) : store :=
  match h, c with
  | [], _ => []
  | o :: h', O => mk_obj (o_thing o) (Some p) (o_parts o) :: h'
  | o :: h', S c' => o :: upd c' p h'
  end.
(** [for x in cs: x.parent = p]; an optional object is a list of at most one *)
Fixpoint adopt (p : nat) (cs : list nat) : H unit :=
  match cs with
  | [] => hret tt
  | c :: cs' => fun h => adopt p cs' (upd c p h)
  end.
(** list comprehension, loop with append *)
Definition each {A} (f : A -> H nat) : list A -> H (list nat) :=
  fix go l := match l with
              | [] => hret []
              | x :: l' => i <~ f x ;; is <~ go l' ;; hret (i :: is)
              end.
(** [f(x) if x is not None else None] *)
Definition maybe {A} (f : A -> H nat) (o : option A) : H (list nat) :=
  match o with None => hret [] | Some x => i <~ f x ;; hret [i] end.

(** ** parse.py *)
(** parse.py:808-825 *)
Definition parse_value (v : svd_ev) : H nat := new (TValue v) [].
(** parse.py:789-806 *)
Definition parse_dim_array (d : svd_dai) : H nat :=
  vs <~ each parse_value (sdai_evs d) ;;
  i <~ new (TDimArray d) vs ;;
  adopt i vs ;~ hret i.
(** parse.py:645-672 *)
Definition parse_constraint (w : write_constraint) : H nat := new (TConstraint w) [].
(** parse.py:616-643 *)
Definition parse_enums (c : svd_evc) : H nat :=
  vs <~ each parse_value (sevc_evs c) ;;
  i <~ new (TEnums c) vs ;;
  adopt i vs ;~ hret i.
(** parse.py:545-614 *)
Definition parse_field_obj (f : svd_field) : H nat :=
  w <~ maybe parse_constraint (sf_wc f) ;;
  es <~ each parse_enums (sf_evcs f) ;;
  d <~ maybe parse_dim_array (sd_dai (sf_dim f)) ;;
  i <~ new (TField f) (w ++ es ++ d) ;;
  adopt i w ;~ adopt i es ;~ adopt i d ;~ hret i.
(** parse.py:482-543 *)
Definition parse_register_obj (r : svd_reg) : H nat :=
  w <~ maybe parse_constraint (sr_wc r) ;;
  fs <~ each parse_field_obj (sr_fields r) ;;
  d <~ maybe parse_dim_array (sd_dai (sr_dim r)) ;;
  i <~ new (TRegister r) (w ++ fs ++ d) ;;
  adopt i w ;~ adopt i fs ;~ adopt i d ;~ hret i.
(** parse.py:674-731 *)
Fixpoint parse_rc_obj (x : svd_rc) : H nat :=
  match x with
  | SReg r => parse_register_obj r
  | SClu c l =>
      xs <~ (fix go l := match l with [] => hret [] | y :: l' => i <~ parse_rc_obj y ;; is <~ go l' ;; hret (i :: is) end) l ;;
      d <~ maybe parse_dim_array (sd_dai (sc_dim c)) ;;
      i <~ new (TCluster c) (xs ++ d) ;;
      adopt i xs ;~ adopt i d ;~ hret i
  end.
(** parse.py:756-775, 733-754 *)
Definition parse_block (b : svd_ab) : H nat := new (TBlock b) [].
Definition parse_interrupt_obj (i : interrupt) : H nat := new (TInterrupt i) [].
(** parse.py:403-480 *)
Definition parse_peripheral_obj (p : svd_periph) : H nat :=
  bs <~ each parse_block (sp_abs p) ;;
  is <~ each parse_interrupt_obj (sp_ints p) ;;
  xs <~ each parse_rc_obj (sp_rcs p) ;;
  d <~ maybe parse_dim_array (sd_dai (sp_dim p)) ;;
  i <~ new (TPeripheral p) (bs ++ is ++ xs ++ d) ;;
  adopt i bs ;~ adopt i is ;~ adopt i xs ;~ adopt i d ;~ hret i.
(** parse.py:388-401, 360-386 *)
Definition parse_region (r : svd_sau_region) : H nat := new (TRegion r) [].
Definition parse_sau (c : svd_sau_config) : H nat :=
  rs <~ each parse_region (ssc_regions c) ;;
  i <~ new (TSau c) rs ;;
  adopt i rs ;~ hret i.
(** parse.py:309-358 *)
Definition parse_cpu_obj (c : svd_cpu) : H nat :=
  s <~ maybe parse_sau (scpu_sau c) ;;
  i <~ new (TCpu c) s ;;
  adopt i s ;~ hret i.
(** parse.py:225-290 *)
Definition parse_device_obj (d : svd_device) : H nat :=
  c <~ maybe parse_cpu_obj (sdv_cpu d) ;;
  ps <~ each parse_peripheral_obj (sdv_periphs d) ;;
  i <~ new (TDevice d) (c ++ ps) ;;
  adopt i c ;~ adopt i ps ;~ hret i.

(** ** util/process_parse_model_convert.py *)
(** :94-101 *)
Definition convert_value (v : ev) : H nat := new (TValue (conv_ev v)) [].
(** :138-144 *)
Definition convert_constraint (w : write_constraint) : H nat := new (TConstraint w) [].
(** :147-162 *)
Definition convert_enums (c : evc) : H nat :=
  vs <~ each convert_value (evc_evs c) ;;
  i <~ new (TEnums (conv_evc c)) vs ;;
  adopt i vs ;~ hret i.
(** :165-189: the write constraint is converted inside the constructor call; only the containers are assigned a parent *)
Definition convert_field (f : field) : H nat :=
  es <~ each convert_enums (f_evcs f) ;;
  w <~ maybe convert_constraint (fb_wc (f_b f)) ;;
  i <~ new (TField (conv_field f)) (w ++ es) ;;
  adopt i es ;~ hret i.
(** :192-221: likewise only the fields *)
Definition convert_register (r : reg) : H nat :=
  fs <~ each convert_field (r_fields r) ;;
  w <~ maybe convert_constraint (rb_wc (r_b r)) ;;
  i <~ new (TRegister (conv_reg r)) (w ++ fs) ;;
  adopt i fs ;~ hret i.
(** :224-255 *)
Fixpoint convert_rc (x : rc) : H nat :=
  match x with
  | Reg r => convert_register r
  | Clu c l =>
      xs <~ (fix go l := match l with [] => hret [] | y :: l' => i <~ convert_rc y ;; is <~ go l' ;; hret (i :: is) end) l ;;
      i <~ new (TCluster (conv_clu c)) xs ;;
      adopt i xs ;~ hret i
  end.
(** :119-135 *)
Definition convert_block (b : addr_block) : H nat := new (TBlock (conv_ab b)) [].
Definition convert_interrupt (i : interrupt) : H nat := new (TInterrupt i) [].
(** :258-305 *)
Definition convert_peripheral (p : per) : H nat :=
  bs <~ each convert_block (pb_abs (pr_b p)) ;;
  is <~ each convert_interrupt (pb_ints (pr_b p)) ;;
  xs <~ each convert_rc (pr_rcs p) ;;
  i <~ new (TPeripheral (conv_per p)) (bs ++ is ++ xs) ;;
  adopt i bs ;~ adopt i is ;~ adopt i xs ;~ hret i.
(** :35-59 *)
Definition convert_region (r : sau_region) : H nat := new (TRegion (conv_sau_region r)) [].
Definition convert_sau (c : sau_config) : H nat :=
  rs <~ each convert_region (sauc_regions c) ;;
  i <~ new (TSau (conv_sau_config c)) rs ;;
  adopt i rs ;~ hret i.
(** :62-91 *)
Definition convert_cpu (c : cpu) : H nat :=
  s <~ maybe convert_sau (cpu_sau c) ;;
  i <~ new (TCpu (conv_cpu c)) s ;;
  adopt i s ;~ hret i.
(** :308-340: the peripherals first, the CPU inside the constructor call *)
Definition convert_device (d : device) : H nat :=
  ps <~ each convert_peripheral (dv_periphs d) ;;
  c <~ maybe convert_cpu (db_cpu (dv_b d)) ;;
  i <~ new (TDevice (conv_device d)) (c ++ ps) ;;
  adopt i c ;~ adopt i ps ;~ hret i.
