(** * SpecLink: a parsed description as a tree of objects with back pointers (for C63) *)
From Verif Require Import Base Types LinkModel.

(** the tree a value stands for: every part of it is an object of its own *)
Inductive tree := Node (t : thing) (parts : list tree).
Definition root (x : tree) : thing := match x with Node t _ => t end.
Definition of_option {A} (f : A -> tree) (o : option A) : list tree := match o with Some x => [f x] | None => [] end.
Definition value_tree (v : svd_ev) : tree := Node (TValue v) [].
Definition dim_tree (d : svd_dai) : tree := Node (TDimArray d) (map value_tree (sdai_evs d)).
Definition constraint_tree (w : write_constraint) : tree := Node (TConstraint w) [].
Definition enums_tree (c : svd_evc) : tree := Node (TEnums c) (map value_tree (sevc_evs c)).
Definition field_tree (f : svd_field) : tree :=
  Node (TField f) (of_option constraint_tree (sf_wc f) ++ map enums_tree (sf_evcs f) ++ of_option dim_tree (sd_dai (sf_dim f))).
Definition register_tree (r : svd_reg) : tree :=
  Node (TRegister r) (of_option constraint_tree (sr_wc r) ++ map field_tree (sr_fields r) ++ of_option dim_tree (sd_dai (sr_dim r))).
Fixpoint rc_tree (x : svd_rc) : tree :=
  match x with
  | SReg r => register_tree r
  | SClu c l => Node (TCluster c) (map rc_tree l ++ of_option dim_tree (sd_dai (sc_dim c)))
  end.
Definition peripheral_tree (p : svd_periph) : tree :=
  Node (TPeripheral p) (map (fun b => Node (TBlock b) []) (sp_abs p) ++ map (fun i => Node (TInterrupt i) []) (sp_ints p) ++
    map rc_tree (sp_rcs p) ++ of_option dim_tree (sd_dai (sp_dim p))).
Definition sau_tree (c : svd_sau_config) : tree := Node (TSau c) (map (fun r => Node (TRegion r) []) (ssc_regions c)).
Definition cpu_tree (c : svd_cpu) : tree := Node (TCpu c) (of_option sau_tree (scpu_sau c)).
Definition device_tree (d : svd_device) : tree :=
  Node (TDevice d) (of_option cpu_tree (sdv_cpu d) ++ map peripheral_tree (sdv_periphs d)).

(** [Stands orphan h p i x]: in the store [h] the object [i] stands for the tree [x] and its parent is [p]; its parts are different objects, they stand
    for the parts of [x] and their parent is [i] (the parts of a kind that is [orphan] have no parent) *)
Inductive Stands (orphan : thing -> bool) (h : store) : option nat -> nat -> tree -> Prop :=
| stands p i t cs xs : nth_error h i = Some (mk_obj t p cs) -> NoDup cs -> AllStand orphan h i cs xs -> Stands orphan h p i (Node t xs)
with AllStand (orphan : thing -> bool) (h : store) : nat -> list nat -> list tree -> Prop :=
| all_stand_nil i : AllStand orphan h i [] []
| all_stand_cons i c cs x xs : Stands orphan h (if orphan (root x) then None else Some i) c x -> AllStand orphan h i cs xs ->
    AllStand orphan h i (c :: cs) (x :: xs).
Definition nobody (t : thing) : bool := false.
Definition constraints (t : thing) : bool := match t with TConstraint _ => true | _ => false end.

(** all objects of the tree of [i] *)
Inductive Below (h : store) (i : nat) : nat -> Prop :=
| below_self : Below h i i
| below_part j o c : Below h i j -> nth_error h j = Some o -> In c (o_parts o) -> Below h i c.
