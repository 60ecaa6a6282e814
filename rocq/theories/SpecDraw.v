(** * SpecDraw: what a picture of the graph should show. *)
From Verif Require Import Base PyStr PyInt Types ResolveModel SpecLog.
Local Open Scope string_scope.

(** "NAME\n(Register)\nrx_index: 12" *)
Definition box_text (shown kind : string) (i : nat) : string :=
  shown ++ newline ++ "(" ++ kind ++ ")" ++ newline ++ "rx_index: " ++ str_of_Z (Z.of_nat i).
Definition shown_name (t : option string) : string := match t with None => "no name" | Some t => if String.eqb t "" then "no name" else t end.
(** [Box i x text colour]: the box for the node [x] with the index [i]: the text in it, and the colour of the text and the frame.  The device is blue, an element
    that has been processed is blue, one that has not is black, a reference not resolved yet is red. *)
Inductive Box (i : nat) : gnode -> string -> string -> Prop :=
| box_device n : n_level n = LDevice -> Box i (NElem n) "Device" "blue"
| box_processed n : n_level n <> LDevice -> n_done n = true -> Box i (NElem n) (box_text (shown_name (n_name n)) (level_label (n_level n)) i) "blue"
| box_open n : n_level n <> LDevice -> n_done n = false -> Box i (NElem n) (box_text (shown_name (n_name n)) (level_label (n_level n)) i) "black"
| box_reference path : Box i (NPh path) (box_text path "Placeholder" i) "red".
(** arrows: to a child of an element that has not been processed, of one that has, to and from a reference, from a base to what is derived from it *)
Inductive Arrow : etype -> string -> Prop :=
| arrow_open : Arrow CHILD_UNRESOLVED "black" | arrow_child : Arrow CHILD_RESOLVED "blue"
| arrow_reference : Arrow PLACEHOLDER "red" | arrow_derived : Arrow DERIVE "green".
(** the value of an attribute *)
Inductive Attr : list (string * string) -> string -> string -> Prop :=
| attr_here k v l : Attr ((k, v) :: l) k v
| attr_later k' v' l k v : k' <> k -> Attr l k v -> Attr ((k', v') :: l) k v.

(** the same node as far as it is drawn *)
Definition alike (x y : gnode) : Prop :=
  match x, y with
  | NElem a, NElem b => n_level a = n_level b /\ (n_level a = LDevice \/ shown_name (n_name a) = shown_name (n_name b) /\ n_done a = n_done b)
  | NPh a, NPh b => a = b
  | _, _ => False
  end.
