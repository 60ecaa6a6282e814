(** * SpecEdges: how the elements of a device are joined while it is resolved (C64). *)
From Verif Require Import Base Types ResolveModel.

(** what an element contains, by its level: a device peripherals, a peripheral and a cluster registers and clusters, a register fields, a field containers of enumerated values *)
Definition contains : list (level * level) :=
  [(LDevice, LPeripheral); (LPeripheral, LRegister); (LPeripheral, LCluster); (LCluster, LRegister); (LCluster, LCluster); (LRegister, LField); (LField, LEnum)].
(** node [i] is an element of level [l]; node [i] stands for a derivedFrom reference *)
Definition element_at (g : graph) (i : nat) (l : level) : Prop := exists n, get_slot g i = Some (NElem n) /\ n_level n = l.
Definition reference_at (g : graph) (i : nat) : Prop := exists path, get_slot g i = Some (NPh path).
(** the element [j] has been given its value *)
Definition done_at (g : graph) (j : nat) : Prop := exists n, get_slot g j = Some (NElem n) /\ n_done n = true.

(** the graphs the resolver goes through: the graph of the description, then any number of references resolved and elements processed *)
Inductive Works (ps : list svd_periph) : graph -> Prop :=
| Wk_start ws g : initialization ps = (ws, Ok g) -> Works ps g
| Wk_resolve g h ws g' : Works ps g -> resolve_placeholder g h = (ws, Ok g') -> Works ps g'
| Wk_process g i ws g' : Works ps g -> process_node g i = (ws, Ok g') -> Works ps g'.
