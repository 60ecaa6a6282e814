(** * SpecSize: the effective sizes of a description without derivedFrom (C12).  Only the data types and [Subst] are used. *)
From Verif Require Import Base PyStr Types FinalModel SpecDim.

Definition stated_or (z : Z) (own : option Z) : Z := match own with Some s => s | None => z end.
Definition max_of (l : list Z) : Z := fold_right Z.max (-1) l.
Definition whole_bytes (s : Z) : Z := if s mod 8 =? 0 then s else 0.
(** what an element contributes to the size of the element around it: its size, which counts only if it is a number of bytes, or [ctx], the size
    stated next above, if it has none; the size of a cluster with children is the largest contribution of its children *)
Fixpoint counts (ctx : Z) (x : svd_rc) : Z :=
  match x with
  | SReg r => match op_size (sr_props r) with Some s => whole_bytes s | None => ctx end
  | SClu c [] => match op_size (sc_props c) with Some s => whole_bytes s | None => ctx end
  | SClu c l => whole_bytes (max_of (map (counts (stated_or ctx (op_size (sc_props c)))) l))
  end.
(** the size of an element with children [l] that states the size [own] *)
Definition adjusted (ctx : Z) (own : option Z) (l : list svd_rc) : Z := max_of (map (counts (stated_or ctx own)) l).

(** [name] is the written name [w], or the name of an instance if [w] is that of an array or list *)
Definition InstanceOf (w name : string) : Prop := name = w \/ exists ph ix, (ph = "%s" \/ ph = "[%s]")%string /\ Subst ph ix w name.

(** [EffSize ctx up l path reg s]: the element at [path] below [l] is a register ([reg]) or a cluster of size [s]; [ctx]: the size stated next
    above [l]; [up]: the size of the element around [l] *)
Inductive EffSize : Z -> Z -> list svd_rc -> list string -> bool -> Z -> Prop :=
| ES_reg ctx up l r n : In (SReg r) l -> InstanceOf (sr_name r) n -> EffSize ctx up l [n] true (stated_or up (op_size (sr_props r)))
| ES_clu ctx up l c ch n : In (SClu c ch) l -> InstanceOf (sc_name c) n -> ch <> [] -> EffSize ctx up l [n] false (adjusted ctx (op_size (sc_props c)) ch)
| ES_deep ctx up l c ch n path reg s : In (SClu c ch) l -> InstanceOf (sc_name c) n ->
    EffSize (stated_or ctx (op_size (sc_props c))) (adjusted ctx (op_size (sc_props c)) ch) ch path reg s -> EffSize ctx up l (n :: path) reg s.
