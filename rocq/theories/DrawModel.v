(** * DrawModel: what the resolver draws.
    /repo/src/svdsuite/resolve/graph.py:352-400 ([ResolverGraph.get_svg]): the attributes handed to Graphviz.

    [graphviz_draw] (rustworkx, Graphviz) is a parameter of the log (LogModel.v); its input is modelled here: one statement for each node, given by the
    index and the dictionary of [node_attr_fn], and one for each edge, given by the two indices and the dictionary of [edge_attr_fn].  The order of the
    statements is that of the model's lists, which need not be the library's. *)
From Verif Require Import Base PyStr PyInt Types ResolveModel LogModel.
Local Open Scope string_scope.

Definition attrs : Type := list (string * string).
(** graph.py:359-363: [f"...\n({level})\nrx_index: {index}"] *)
Definition node_label (shown kind : string) (i : nat) : string :=
  shown ++ nl ++ "(" ++ kind ++ ")" ++ nl ++ "rx_index: " ++ nat_text i.
(** graph.py:353-375 node_attr_fn *)
Definition node_attr (i : nat) (x : gnode) : attrs :=
  match x with
  | NElem n =>
      if level_eqb (n_level n) LDevice then [("label", "Device"); ("color", "blue"); ("fontcolor", "blue")]
      else
        [("label", node_label (match n_name n with Some (String _ _ as s) => s | _ => "no name" end) (level_text (n_level n)) i);
         ("color", if n_done n then "blue" else "black"); ("fontcolor", if n_done n then "blue" else "black")]
  | NPh path => [("label", node_label path "Placeholder" i); ("color", "red"); ("fontcolor", "red")]
  end.
(** graph.py:377-387 edge_attr_fn *)
Definition edge_attr (t : etype) : attrs :=
  match t with
  | CHILD_UNRESOLVED => [("color", "black")]
  | CHILD_RESOLVED => [("color", "blue")]
  | PLACEHOLDER => [("color", "red")]
  | DERIVE => [("color", "green")]
  end.
(** graph.py:389-396: the statements for Graphviz *)
Record dot := mk_dot { dot_nodes : list (nat * attrs); dot_edges : list (nat * nat * attrs) }.
Definition dot_of (g : graph) : dot :=
  mk_dot (flat_map (fun i => match get_slot g i with Some x => [(i, node_attr i x)] | None => [] end) (node_indices g))
         (map (fun e => (e_src e, e_dst e, edge_attr (e_typ e))) (g_edges g)).
(** graph.py:352-400 get_svg, given [graphviz_draw] *)
Definition get_svg (render : dot -> string + exn) (g : graph) : string + exn := render (dot_of g).
