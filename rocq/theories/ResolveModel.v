(** * ResolveModel: the derivedFrom/dim resolver.
    /repo/src/svdsuite/resolve/{graph_elements,graph,graph_builder,resolver}.py, process.py:90-134.

    The graph is a rustworkx [PyDiGraph(check_cycle=True)].  Its behaviour as used by the code, transcribed from the library:
    - a removed node's index is reused by the next [add_node], last removed first;
    - [in_edges], [out_edges], [successors] list the newest edge first ([successors] without repetitions);
    - [remove_edge] and [update_edge] act on the newest edge between the two nodes;
    - [add_edge] refuses an edge p -> c when c reaches p (the library skips the search when it cannot succeed);
    - [subgraph] keeps the node order; [lexicographical_topological_sort] always takes the available node with the smallest
      (key, index).
    Nodes are identified by their index (the code maps node objects to indices and back).  Node objects are values: the
    objects shared by the instances of a dim element always receive equal updates. *)
From Verif Require Import Base PyStr PyInt Types DimModel EnumModel ElemModel.

(** ** graph_elements.py *)

(** graph_elements.py:9-15 ElementLevel *)
Inductive level := LDevice | LPeripheral | LCluster | LRegister | LField | LEnum.
Definition level_eqb (a b : level) : bool :=
  match a, b with
  | LDevice, LDevice | LPeripheral, LPeripheral | LCluster, LCluster | LRegister, LRegister | LField, LField | LEnum, LEnum => true
  | _, _ => false
  end.
(** graph_elements.py:23-27 EdgeType *)
Inductive etype := CHILD_UNRESOLVED | CHILD_RESOLVED | PLACEHOLDER | DERIVE.
Definition etype_eqb (a b : etype) : bool :=
  match a, b with
  | CHILD_UNRESOLVED, CHILD_UNRESOLVED | CHILD_RESOLVED, CHILD_RESOLVED | PLACEHOLDER, PLACEHOLDER | DERIVE, DERIVE => true
  | _, _ => false
  end.
Definition is_child (t : etype) : bool := match t with CHILD_UNRESOLVED | CHILD_RESOLVED => true | _ => false end.

(** ElementNode.parsed and ElementNode.processed *)
Inductive parsed := PaDev | PaPer (p : svd_periph) | PaRc (x : svd_rc) | PaFld (f : svd_field) | PaEvc (e : svd_evc).
Inductive processed := PrPer (p : iper) | PrRc (x : irc) | PrFld (f : ifield).

(** graph_elements.py:46-110 ElementNode ([n_done]: status is PROCESSED) *)
Record node := mk_node { n_name : option string; n_level : level; n_done : bool; n_parsed : parsed;
                         n_processed : option processed; n_tmpl : bool }.
(** graph_elements.py:34-43 PlaceholderNode *)
Inductive gnode := NElem (n : node) | NPh (path : string).

Definition edge : Type := (nat * nat * etype)%type.
Definition e_src (e : edge) : nat := fst (fst e).
Definition e_dst (e : edge) : nat := snd (fst e).
Definition e_typ (e : edge) : etype := snd e.

(** graph.py:20-24: slots of the graph, freed indices (last freed first), edges (newest first), _placeholders *)
Record graph := mk_graph { g_slots : list (option gnode); g_free : list nat; g_edges : list edge; g_phs : list nat }.
Definition empty_graph : graph := mk_graph [] [] [] [].

(** ** Graph library operations *)

Definition get_slot (g : graph) (i : nat) : option gnode := nth i (g_slots g) None.
Definition get_node (g : graph) (i : nat) : option node :=
  match get_slot g i with Some (NElem n) => Some n | _ => None end.
Definition is_elem (g : graph) (i : nat) : bool := is_some (get_node g i).

Fixpoint set_nth {A} (i : nat) (x : A) (l : list A) : list A :=
  match l, i with
  | [], _ => []
  | _ :: l', O => x :: l'
  | y :: l', S i' => y :: set_nth i' x l'
  end.

(** PyDiGraph.add_node *)
Definition add_node (g : graph) (n : gnode) : graph * nat :=
  match g_free g with
  | i :: fr => (mk_graph (set_nth i (Some n) (g_slots g)) fr (g_edges g) (g_phs g), i)
  | [] => (mk_graph (g_slots g ++ [Some n]) [] (g_edges g) (g_phs g), length (g_slots g))
  end.
(** PyDiGraph.remove_node, and graph.py:124-135: also removed from _placeholders (only placeholders are removed) *)
Definition remove_placeholder (g : graph) (i : nat) : graph :=
  mk_graph (set_nth i None (g_slots g)) (i :: g_free g)
    (filter (fun e => negb (Nat.eqb (e_src e) i) && negb (Nat.eqb (e_dst e) i)) (g_edges g))
    (filter (fun p => negb (Nat.eqb p i)) (g_phs g)).
(** assignment to the attributes of a node object *)
Definition set_node (g : graph) (i : nat) (n : node) : graph :=
  mk_graph (set_nth i (Some (NElem n)) (g_slots g)) (g_free g) (g_edges g) (g_phs g).

Definition in_edges (g : graph) (i : nat) : list edge := filter (fun e => Nat.eqb (e_dst e) i) (g_edges g).
Definition out_edges (g : graph) (i : nat) : list edge := filter (fun e => Nat.eqb (e_src e) i) (g_edges g).
Definition mem_nat (x : nat) (l : list nat) : bool := existsb (Nat.eqb x) l.
Fixpoint dedup (seen : list nat) (l : list nat) : list nat :=
  match l with
  | [] => []
  | x :: l' => if mem_nat x seen then dedup seen l' else x :: dedup (x :: seen) l'
  end.
Definition successors (g : graph) (i : nat) : list nat := dedup [] (map e_dst (out_edges g i)).
Definition predecessors (g : graph) (i : nat) : list nat := dedup [] (map e_src (in_edges g i)).

(** iterative depth first search: pop, skip if visited, visit, push the successors in order (the top of the stack is the
    list head).  [fuel] bounds the number of pops; [dfs_fuel] always suffices. *)
Fixpoint dfs (succ : nat -> list nat) (fuel : nat) (stack visited : list nat) : list nat :=
  match fuel, stack with
  | _, [] => visited
  | O, _ => visited
  | S f, x :: s => if mem_nat x visited then dfs succ f s visited else dfs succ f (rev (succ x) ++ s) (x :: visited)
  end.
Definition dfs_fuel (g : graph) (stack : list nat) : nat := S (length stack + length (g_edges g)).

(** has_path_connecting of the library's cycle check *)
Definition reaches (g : graph) (a b : nat) : bool :=
  mem_nat b (dfs (fun i => map e_dst (out_edges g i)) (dfs_fuel g [a]) [a] []).

(** PyDiGraph.add_edge; [None] = DAGWouldCycle *)
Definition add_edge (g : graph) (p c : nat) (t : etype) : option graph :=
  if reaches g c p then None else Some (mk_graph (g_slots g) (g_free g) ((p, c, t) :: g_edges g) (g_phs g)).
(** an add_edge whose DAGWouldCycle is not caught (modelled by the ResolverGraphException of graph.py:42) *)
Definition add_edge_m (g : graph) (p c : nat) (t : etype) : M graph :=
  match add_edge g p c t with Some g' => ret g' | None => raise ResolverGraphException "DAGWouldCycle" end.

Fixpoint remove_first (p c : nat) (l : list edge) : list edge :=
  match l with
  | [] => []
  | e :: l' => if Nat.eqb (e_src e) p && Nat.eqb (e_dst e) c then l' else e :: remove_first p c l'
  end.
(** PyDiGraph.remove_edge (graph.py:175-179; an edge exists whenever it is called) *)
Definition remove_edge (g : graph) (p c : nat) : graph := mk_graph (g_slots g) (g_free g) (remove_first p c (g_edges g)) (g_phs g).
Fixpoint update_first (p c : nat) (t : etype) (l : list edge) : list edge :=
  match l with
  | [] => []
  | e :: l' => if Nat.eqb (e_src e) p && Nat.eqb (e_dst e) c then (p, c, t) :: l' else e :: update_first p c t l'
  end.
(** PyDiGraph.update_edge (graph.py:181-185) *)
Definition update_edge (g : graph) (p c : nat) (t : etype) : graph :=
  mk_graph (g_slots g) (g_free g) (update_first p c t (g_edges g)) (g_phs g).

(** ** ResolverGraph, graph.py *)

(** graph.py:30-35 add_element_child: the child is new, so no cycle can arise *)
Definition add_element_child (g : graph) (parent : nat) (n : node) (t : etype) : M (graph * nat) :=
  let '(g1, i) := add_node g (NElem n) in
  g2 <- add_edge_m g1 parent i t ;;
  ret (g2, i).

(** graph.py:44-52 add_placeholder *)
Definition add_placeholder (g : graph) (path : string) (child : nat) : M graph :=
  let '(g1, i) := add_node g (NPh path) in
  g2 <- add_edge_m g1 i child PLACEHOLDER ;;
  ret (mk_graph (g_slots g2) (g_free g2) (g_edges g2) (g_phs g2 ++ [i])).

(** graph.py:78-88, 90-100 *)
Definition get_element_parents (g : graph) (i : nat) : list nat :=
  map e_src (filter (fun e => is_elem g (e_src e) && is_child (e_typ e)) (in_edges g i)).
Definition get_element_childrens (g : graph) (i : nat) : list nat :=
  map e_dst (filter (fun e => is_elem g (e_dst e) && is_child (e_typ e)) (out_edges g i)).

(** graph.py:102-122 get_element_siblings *)
Definition get_element_siblings (g : graph) (i : nat) : list nat :=
  match get_element_parents g i with
  | [] => []
  | p :: _ => filter (fun c => is_elem g c && negb (Nat.eqb c i)) (successors g p)
  end.

(** graph.py:57-76 get_placeholder_co_parent *)
Definition get_placeholder_co_parent (g : graph) (ph : nat) : M (option nat) :=
  match successors g ph with
  | [] => raise ResolverGraphException "Placeholder has no child"
  | [c] =>
      match filter (is_elem g) (predecessors g c) with
      | [] => ret None
      | [p] => ret (Some p)
      | _ => raise ResolverGraphException "Placeholder has more than one co-parent"
      end
  | _ => raise ResolverGraphException "Placeholder has more than one child"
  end.

(** graph.py:187-202 get_placeholder_child, 204-219 get_placeholder_parent *)
Definition get_placeholder_child (g : graph) (ph : nat) : M nat :=
  match map e_dst (filter (fun e => is_elem g (e_dst e) && etype_eqb (e_typ e) PLACEHOLDER) (out_edges g ph)) with
  | [] => raise ResolverGraphException "Placeholder has no children"
  | [c] => ret c
  | _ => raise ResolverGraphException "Placeholder has more than one child"
  end.
Definition get_placeholder_parent (g : graph) (ph : nat) : M nat :=
  match map e_src (filter (fun e => is_elem g (e_src e) && etype_eqb (e_typ e) PLACEHOLDER) (in_edges g ph)) with
  | [] => raise ResolverGraphException "Placeholder has no parent"
  | [p] => ret p
  | _ => raise ResolverGraphException "Placeholder has more than one parent"
  end.

(** graph.py:137-142 has_incoming_edge_of_types, one type *)
Definition has_incoming (g : graph) (t : etype) (i : nat) : bool := existsb (fun e => etype_eqb (e_typ e) t) (in_edges g i).

(** graph.py:168-173 get_base_element_node *)
Definition get_base_element_node (g : graph) (i : nat) : option nat :=
  option_map e_src (find (fun e => etype_eqb (e_typ e) DERIVE) (in_edges g i)).

Definition node_indices (g : graph) : list nat := filter (fun i => is_some (get_slot g i)) (seq 0 (length (g_slots g))).
Definition unprocessed (g : graph) (i : nat) : bool := match get_node g i with Some n => negb (n_done n) | None => false end.

(** graph.py:293-307 get_unprocessed_root_nodes; graph.py:309-310 reads the recorded indices: [unprocessed_nodes] *)
Definition unprocessed_nodes (g : graph) : list nat := filter (unprocessed g) (node_indices g).
Definition unprocessed_root_nodes (g : graph) : list nat := filter (has_incoming g CHILD_RESOLVED) (unprocessed_nodes g).

(** lexicographical_topological_sort of the subgraph induced by [todo] (ascending), keys of graph.py:145-154.
    [todo] without an available node would be a cyclic subgraph: excluded by theorem C34. *)
Definition available (g : graph) (todo : list nat) : list nat :=
  filter (fun i => negb (existsb (fun e => mem_nat (e_src e) todo) (in_edges g i))) todo.
Definition pick (g : graph) (l : list nat) : option nat :=   (* least (key, index); [l] ascending, key "A" before "B" *)
  match find (fun i => negb (has_incoming g DERIVE i)) l with
  | Some i => Some i
  | None => match l with [] => None | i :: _ => Some i end
  end.
Fixpoint topo (g : graph) (fuel : nat) (todo : list nat) : list nat :=
  match fuel with
  | O => []
  | S f =>
      match pick g (available g todo) with
      | None => []
      | Some i => i :: topo g f (filter (fun j => negb (Nat.eqb j i)) todo)
      end
  end.
(** graph.py:144-166 get_topological_sorted_nodes *)
Definition topological_sorted (g : graph) (nodes : list nat) : list nat :=
  let todo := filter (fun i => mem_nat i nodes && unprocessed g i) (node_indices g) in
  topo g (length todo) todo.

(** graph.py:221-291 replicate_descendants *)

Fixpoint nodup_nat (l : list nat) : bool := match l with [] => true | x :: l' => negb (mem_nat x l') && nodup_nat l' end.

(** The iteration order of a Python set of small non-negative integers, as CPython (3.7 and later, Objects/setobject.c)
    implements it: a table of [2^k] entries, at first 8; the hash of such an integer is the integer itself; an entry is looked
    for at [i = hash & mask] and, if [i + 9 <= mask], in the nine entries after it, then at [i*5 + 1 + perturb] modulo the
    size, [perturb] being shifted right by five bits each time; when at least three fifths of [mask] entries are in use the table is
    rebuilt with the smallest power of two above four times the number of entries (up to 50000 entries; twice beyond that, not modelled), the entries being
    taken over in table order.  Iteration is in table order. *)
Fixpoint set_probe (fuel : nat) (t : list (option nat)) (i perturb x : nat) : list (option nat) :=
  match fuel with
  | O => t
  | S f =>
      let mask := (length t - 1)%nat in
      match find (fun p => match nth p t None with None => true | Some y => Nat.eqb x y end)
              (seq i (if Nat.leb (i + 9) mask then 10 else 1)%nat) with
      | Some p => firstn p t ++ Some x :: skipn (S p) t
      | None => let perturb' := Nat.div perturb 32 in set_probe f t (Nat.modulo (i * 5 + 1 + perturb') (length t))%nat perturb' x
      end
  end.
Definition set_place (t : list (option nat)) (x : nat) : list (option nat) :=
  set_probe (20 + length t)%nat t (Nat.modulo x (length t)) x x.
Definition set_items (t : list (option nat)) : list nat := flat_map (fun e => match e with Some x => [x] | None => [] end) t.
Fixpoint set_newsize (fuel n minused : nat) : nat :=
  match fuel with O => n | S f => if Nat.leb n minused then set_newsize f (2 * n)%nat minused else n end.
Definition set_add (t : list (option nat)) (x : nat) : list (option nat) :=
  if mem_nat x (set_items t) then t
  else
    let t' := set_place t x in
    let used := length (set_items t') in
    if Nat.ltb (used * 5) ((length t' - 1) * 3)%nat then t'
    else fold_left set_place (set_items t') (repeat None (set_newsize (S used) 8 (used * 4)%nat)).
Definition set_order (l : list nat) : list nat := set_items (fold_left set_add l (repeat None 8)).

(** :224-240 the indices reached from the source without DERIVE edges (the source itself only if it were on a cycle), in the
    iteration order of the set they were added to: the nodes are visited in the order of the search, and the ends of the edges
    of each are added as it is visited.  The comparison with the ascending list (never failing, but not needed for any
    property either) makes it evident that nothing but the order depends on the simulation of the table. *)
Definition out_nd (g : graph) (i : nat) : list nat :=
  map e_dst (filter (fun e => negb (etype_eqb (e_typ e) DERIVE)) (out_edges g i)).
Definition descendants (g : graph) (src : nat) : list nat :=
  let visited := dfs (out_nd g) (dfs_fuel g [src]) [src] [] in
  let reps := flat_map (out_nd g) (rev visited) in
  let ascending := filter (fun i => mem_nat i reps) (node_indices g) in
  let l := set_order reps in
  if nodup_nat l && forallb (fun i => mem_nat i l) ascending && forallb (fun i => mem_nat i ascending) l then l else ascending.

Definition assoc (m : list (nat * nat)) (i : nat) : option nat := option_map snd (find (fun p => Nat.eqb (fst p) i) m).
(** :242-253, 401-415: the copies; returns the mapping *)
Fixpoint copy_nodes (g : graph) (l : list nat) (m : list (nat * nat)) : graph * list (nat * nat) :=
  match l with
  | [] => (g, m)
  | i :: l' =>
      match get_slot g i with
      | None => copy_nodes g l' m
      | Some n =>
          let '(g1, j) := add_node g n in
          let g2 := match n with
                    | NPh _ => mk_graph (g_slots g1) (g_free g1) (g_edges g1) (g_phs g1 ++ [j])
                    | NElem _ => g1 end in
          copy_nodes g2 l' (m ++ [(i, j)])
      end
  end.
(** :255-267 the edges of one copied node: outgoing edges inside the copied set, then incoming DERIVE edges *)
Definition copy_edges_of (m : list (nat * nat)) (g : graph) (ij : nat * nat) : M graph :=
  let '(i, j) := ij in
  g1 <- foldM (fun g e => match assoc m (e_dst e) with
                          | Some c => add_edge_m g j c (e_typ e)
                          | None => ret g end) g (out_edges g i) ;;
  foldM (fun g e => if etype_eqb (e_typ e) DERIVE then add_edge_m g (e_src e) j DERIVE else ret g) g1 (in_edges g1 i).
(** :269-291 attach the copies of the source's immediate children to the target *)
Definition attach (m : list (nat * nat)) (src_done : bool) (target : nat) (g : graph) (e : edge) : M graph :=
  match assoc m (e_dst e) with
  | None => ret g
  | Some c =>
      add_edge_m g target c
        (if is_elem g c then (if src_done then CHILD_RESOLVED else CHILD_UNRESOLVED) else PLACEHOLDER)
  end.
Definition replicate_descendants (g : graph) (src target : nat) : M graph :=
  let '(g1, m) := copy_nodes g (descendants g src) [] in
  g2 <- foldM (copy_edges_of m) g1 m ;;
  foldM (attach m (match get_node g src with Some n => n_done n | None => false end) target) g2 (out_edges g2 src).

(** ** GraphBuilder, graph_builder.py *)

Definition child_etype (parent_done : bool) : etype := if parent_done then CHILD_RESOLVED else CHILD_UNRESOLVED.
(** :91-104 _add_child_to_graph and _add_placeholder_for_derived *)
Definition build_element (g : graph) (parent : nat) (t : etype) (name : option string) (lv : level) (p : parsed)
  (derived : option string) : M (graph * nat) :=
  gi <- add_element_child g parent (mk_node name lv false p None false) t ;;
  match derived with
  | None => ret gi
  | Some path => g' <- add_placeholder (fst gi) path (snd gi) ;; ret (g', snd gi)
  end.

(** :78-89 _constr_graph_enum_containers *)
Definition build_evc (parent : nat) (g : graph) (e : svd_evc) : M graph :=
  gi <- build_element g parent CHILD_UNRESOLVED (sevc_name e) LEnum (PaEvc e) (sevc_derived e) ;; ret (fst gi).
(** :66-76 _constr_graph_fields *)
Definition build_field (parent : nat) (g : graph) (f : svd_field) : M graph :=
  gi <- build_element g parent CHILD_UNRESOLVED (Some (sf_name f)) LField (PaFld f) (sf_derived f) ;;
  foldM (build_evc (snd gi)) (fst gi) (sf_evcs f).
(** :41-64 _constr_graph_registers_clusters, one element *)
Fixpoint build_rc (parent : nat) (g : graph) (x : svd_rc) {struct x} : M graph :=
  match x with
  | SReg r =>
      gi <- build_element g parent CHILD_UNRESOLVED (Some (sr_name r)) LRegister (PaRc x) (sr_derived r) ;;
      foldM (build_field (snd gi)) (fst gi) (sr_fields r)
  | SClu c l =>
      gi <- build_element g parent CHILD_UNRESOLVED (Some (sc_name c)) LCluster (PaRc x) (sc_derived c) ;;
      foldM (build_rc (snd gi)) (fst gi) l
  end.
(** :29-39 _constr_graph_peripherals: the root is PROCESSED *)
Definition build_per (g : graph) (p : svd_periph) : M graph :=
  gi <- build_element g 0%nat CHILD_RESOLVED (Some (sp_name p)) LPeripheral (PaPer p) (sp_derived p) ;;
  foldM (build_rc (snd gi)) (fst gi) (sp_rcs p).
(** :17-27 construct_directed_graph; the root node has index 0 *)
Definition root : nat := 0%nat.
Definition construct_graph (ps : list svd_periph) : M graph :=
  let '(g, _) := add_node empty_graph (NElem (mk_node (Some "Device"%string) LDevice true PaDev None false)) in
  foldM build_per g ps.

(** resolver.py:449-456 _ensure_accurate_parent_child_relationships_for_placeholders *)
Definition link_placeholder (g : graph) (ph : nat) : M graph :=
  cp <- get_placeholder_co_parent g ph ;;
  match cp with
  | None => ret g
  | Some p => add_edge_m g p ph PLACEHOLDER
  end.
(** resolver.py:97-103 _initialization *)
Definition initialization (ps : list svd_periph) : M graph :=
  g <- construct_graph ps ;;
  foldM link_placeholder g (g_phs g).

(** ** Resolver: placeholders *)

Definition is_plain_register (n : node) : bool :=
  match n_processed n with Some (PrRc (IReg r)) => negb (is_some (rb_altgroup (ir_b r))) | _ => false end.

(** resolver.py:272-305 search_nodes.  [acc] = matches so far *)
Definition search_loop (g : graph) (search_sub : nat -> M (list nat)) (part : string) (final : bool) (excl : nat) (lv : level)
  : list nat -> list nat -> M (list nat) :=
  fix go nodes acc :=
    match nodes with
    | [] => ret acc
    | i :: nodes' =>
        match get_node g i with
        | None => go nodes' acc
        | Some n =>
            if Nat.eqb i excl then go nodes' acc
            else if negb (option_eqb String.eqb (n_name n) (Some part)) then go nodes' acc
            else
              found <- (if final then ret (if level_eqb (n_level n) lv then [i] else []) else search_sub i) ;;
              let acc' := acc ++ found in
              match acc' with
              | _ :: _ :: _ =>
                  raise_if (existsb (fun j => match get_node g j with
                                              | Some m => negb (is_some (n_processed m)) | None => true end) acc')
                    ResolveException "Processed attribute of node is None" ;;;
                  match filter (fun j => match get_node g j with Some m => is_plain_register m | None => false end) acc' with
                  | [j] => ret [j]
                  | _ => raise ResolveException "Multiple base nodes found for derive path"
                  end
              | _ => go nodes' acc'
              end
        end
    end.
Fixpoint search_nodes (g : graph) (parts : list string) (excl : nat) (lv : level) (nodes : list nat) : M (list nat) :=
  match parts with
  | [] => ret []            (* str.split never returns an empty list *)
  | part :: rest =>
      search_loop g (fun i => search_nodes g rest excl lv (get_element_childrens g i)) part
        (match rest with [] => true | _ => false end) excl lv nodes []
  end.

(** resolver.py:268-320 _derived_from_path_resolving *)
Definition path_resolving (g : graph) (i : nat) (lv : level) (path : string) : M (option nat) :=
  let parts := split_on "." path in
  m1 <- search_nodes g parts i lv (get_element_siblings g i) ;;
  match m1 with
  | [j] => ret (Some j)
  | _ =>
      m2 <- search_nodes g parts i lv (get_element_childrens g root) ;;
      match m2 with
      | [j] => ret (Some j)
      | _ => ret None
      end
  end.

(** resolver.py:246-266 _resolve_placeholder, 322-328 _is_placeholder_parent_resolved *)
Definition resolve_placeholder (g : graph) (ph : nat) : M graph :=
  parent <- get_placeholder_parent g ph ;;
  if negb (match get_node g parent with Some n => n_done n | None => false end) then ret g
  else
    child <- get_placeholder_child g ph ;;
    match get_slot g ph, get_node g child with
    | Some (NPh path), Some n =>
        base <- path_resolving g child (n_level n) path ;;
        match base with
        | None => ret g
        | Some b =>
            match add_edge (remove_placeholder g ph) b child DERIVE with
            | Some g' => ret g'
            | None => raise CycleException "Inheritance cycle detected"
            end
        end
    | _, _ => raise KeyError "node"
    end.
(** resolver.py:105-109 _resolve_placeholders *)
Definition resolve_placeholders (g : graph) : M graph := foldM resolve_placeholder g (g_phs g).

(** resolver.py:217-244 _find_processable_nodes: nodes with an incoming PLACEHOLDER edge are visited but not followed
    (the visited nodes without such an edge are the result; its order does not matter) *)
Definition processable_succ (g : graph) (i : nat) : list nat :=
  if has_incoming g PLACEHOLDER i then [] else get_element_childrens g i.
Definition find_processable (g : graph) : list nat :=
  let roots := unprocessed_root_nodes g in
  filter (fun i => negb (has_incoming g PLACEHOLDER i)) (dfs (processable_succ g) (dfs_fuel g roots) (rev roots) []).

(** ** Resolver: processing of one node *)

(** the derived_from attribute of a parsed element *)
Definition derived_of (p : parsed) : option string :=
  match p with
  | PaDev => None
  | PaPer p => sp_derived p
  | PaRc (SReg r) => sr_derived r
  | PaRc (SClu c _) => sc_derived c
  | PaFld f => sf_derived f
  | PaEvc e => sevc_derived e
  end.
Definition parsed_dim (p : parsed) : svd_dim :=
  match p with
  | PaPer p => sp_dim p
  | PaRc (SReg r) => sr_dim r
  | PaRc (SClu c _) => sc_dim c
  | PaFld f => sf_dim f
  | _ => mk_sdim None None None None None
  end.
Definition parsed_name (p : parsed) : string :=
  match p with
  | PaPer p => sp_name p
  | PaRc (SReg r) => sr_name r
  | PaRc (SClu c _) => sc_name c
  | PaFld f => sf_name f
  | _ => ""%string
  end.
Definition parsed_display (p : parsed) : option string := match p with PaRc (SReg r) => sr_display r | _ => None end.
Definition parsed_kind (p : parsed) : elem_kind :=
  match p with PaPer _ => KPeripheral | PaRc (SClu _ _) => KCluster | PaFld _ => KField | _ => KRegister end.

Definition processed_dim (v : processed) : idim :=
  match v with PrPer p => ip_dim p | PrRc (IReg r) => ir_dim r | PrRc (IClu c _) => ic_dim c | PrFld f => if_dim f end.
Definition processed_display (v : processed) : option string := match v with PrRc (IReg r) => rb_display (ir_b r) | _ => None end.
Definition processed_name (v : processed) : string :=
  match v with PrPer p => pb_name (ip_b p) | PrRc (IReg r) => rb_name (ir_b r) | PrRc (IClu c _) => cb_name (ic_b c)
             | PrFld f => fb_name (if_b f) end.

(** [element.name = name]; [element.dim = dim_increment = dim_index = None] *)
Definition with_name (name : string) (v : processed) : processed :=
  match v with
  | PrPer p => let b := ip_b p in
      PrPer (mk_iper (mk_pb name (pb_version b) (pb_descr b) (pb_altper b) (pb_group b) (pb_prepend b) (pb_append b) (pb_header b)
                        (pb_disable b) (pb_base b) (pb_abs b) (pb_ints b)) (ip_dim p) (ip_props p) (ip_rcs p))
  | PrRc (IReg r) => let b := ir_b r in
      PrRc (IReg (mk_ireg (mk_rb name (rb_display b) (rb_descr b) (rb_altgroup b) (rb_altreg b) (rb_offset b) (rb_dtype b) (rb_mwv b)
                             (rb_wc b) (rb_ra b)) (ir_dim r) (ir_props r) (ir_fields r)))
  | PrRc (IClu c l) => let b := ic_b c in
      PrRc (IClu (mk_iclu (mk_cb name (cb_descr b) (cb_altclu b) (cb_header b) (cb_offset b)) (ic_dim c) (ic_props c)) l)
  | PrFld f => let b := if_b f in
      PrFld (mk_ifield (mk_fb name (fb_descr b) (fb_lsb b) (fb_msb b) (fb_mwv b) (fb_wc b) (fb_ra b)) (if_dim f) (if_access f) (if_evcs f))
  end.
Definition no_idim : idim := mk_idim None None None.
Definition without_dim (v : processed) : processed :=
  match v with
  | PrPer p => PrPer (mk_iper (ip_b p) no_idim (ip_props p) (ip_rcs p))
  | PrRc (IReg r) => PrRc (IReg (mk_ireg (ir_b r) no_idim (ir_props r) (ir_fields r)))
  | PrRc (IClu c l) => PrRc (IClu (mk_iclu (ic_b c) no_idim (ic_props c)) l)
  | PrFld f => PrFld (mk_ifield (if_b f) no_idim (if_access f) (if_evcs f))
  end.

(** process.py:471-503 _extract_and_process_dimension: effective dim, dim_index, display_name *)
Definition node_dimension (p : parsed) (base : option processed) : M (bool * list string * list (option string)) :=
  let d := merge_dim (parsed_dim p) (option_map processed_dim base) in
  let display := or_if_none (parsed_display p)
                   (match p with PaRc (SReg _) => obind base processed_display | _ => None end) in
  extract_dimension (parsed_name p) display (id_dim d) (id_index d) (parsed_kind p).

(** resolver.py:527-552 _create_dimable_element (a base of another class cannot occur: the levels are equal) *)
Definition create_element (index : Z) (name : string) (display : option string) (p : parsed) (base : option processed) : M processed :=
  match p with
  | PaPer p => ret (PrPer (process_peripheral index name p (match base with Some (PrPer b) => Some b | _ => None end)))
  | PaRc (SClu c _) => ret (PrRc (IClu (process_cluster index name c (match base with Some (PrRc (IClu b _)) => Some b | _ => None end)) []))
  | PaRc (SReg r) => ret (PrRc (IReg (process_register index name display r (match base with Some (PrRc (IReg b)) => Some b | _ => None end))))
  | PaFld f => r <- process_field index name f (match base with Some (PrFld b) => Some b | _ => None end) ;; ret (PrFld r)
  | _ => raise ResolveException "Unknown type in _create_dimable_element"
  end.
(** resolver.py:490-501: one element per resolved name *)
Fixpoint create_elements (index : Z) (names : list string) (displays : list (option string)) (p : parsed) (base : option processed)
  : M (list processed) :=
  match names with
  | [] => ret []
  | name :: names' =>
      v <- create_element index name (hd None displays) p base ;;
      vs <- create_elements (index + 1) names' (tl displays) p base ;;
      ret (v :: vs)
  end.

(** resolver.py:160-183 _update_node *)
Definition update_node (g : graph) (i : nat) (base : option nat) (v : processed) (tmpl : bool) : M graph :=
  g1 <- match base with
        | Some b => replicate_descendants (remove_edge g b i) b i
        | None => ret g
        end ;;
  match get_node g1 i with
  | None => raise KeyError "node"
  | Some n =>
      raise_if (is_some (n_processed n)) ResolveException "Processed attribute of node is already set" ;;;
      let g2 := set_node g1 i (mk_node (n_name n) (n_level n) true (n_parsed n) (Some v) (tmpl || n_tmpl n)) in
      ret (fold_left (fun g c => update_edge g i c CHILD_RESOLVED) (get_element_childrens g2 i) g2)
  end.

(** resolver.py:185-215 _update_dim_node *)
Definition update_dim_node (g : graph) (i : nat) (base : option nat) (vs : list processed) (tv : processed) : M graph :=
  g1 <- update_node g i base tv true ;;
  match get_node g1 i with
  | None => raise KeyError "node"
  | Some n =>
      r <- foldM (fun gn parent =>
             foldM (fun gn v =>
               gi <- add_element_child (fst gn) parent
                       (mk_node (Some (processed_name v)) (n_level n) true (n_parsed n) (Some v) false) CHILD_RESOLVED ;;
               ret (fst gi, snd gn ++ [snd gi])) gn vs) (g1, []) (get_element_parents g1 i) ;;
      foldM (fun g j => foldM (fun g c => add_edge_m g j c CHILD_RESOLVED) g (get_element_childrens g i)) (fst r) (snd r)
  end.

(** resolver.py:483-525 _process_dimable_node, _post_process_dim_elements *)
Definition process_dimable (g : graph) (i : nat) (p : parsed) (base : option nat) (bv : option processed) : M graph :=
  d <- node_dimension p bv ;;
  let '(is_dim, names, displays) := d in
  vs <- create_elements 0 names displays p bv ;;
  match vs with
  | [] => raise ResolveException "No elements created"
  | v :: _ =>
      if is_dim then update_dim_node g i base (map without_dim vs) (with_name (parsed_name p) v)
      else update_node g i base v false
  end.

(** resolver.py:146-158 _process_enumerated_value_container_node *)
Definition process_evc_node (g : graph) (i : nat) (base : option nat) : M graph :=
  g1 <- match base with
        | None => ret g
        | Some b =>
            match get_node g b, get_node g i with
            | Some nb, Some n =>
                match n_parsed nb with
                | PaEvc _ =>
                    replicate_descendants
                      (remove_edge (set_node g i (mk_node (n_name n) (n_level n) (n_done n) (n_parsed nb) (n_processed n) (n_tmpl n))) b i) b i
                | _ => raise ResolveException "parsed attribute can only be set to SVDEnumeratedValueContainer"
                end
            | _, _ => raise KeyError "node"
            end
        end ;;
  match get_node g1 i with
  | None => raise KeyError "node"
  | Some n => ret (set_node g1 i (mk_node (n_name n) (n_level n) true (n_parsed n) (n_processed n) (n_tmpl n)))
  end.

(** resolver.py:458-481 _process_node, 130-144 _get_derived_from_base_node *)
Definition process_node (g : graph) (i : nat) : M graph :=
  match get_node g i with
  | None => raise KeyError "node"
  | Some n =>
      raise_if (match n_parsed n with PaDev => true | _ => false end) ResolveException "Device should not be processed as an element" ;;;
      base <- match derived_of (n_parsed n) with
              | None => ret None
              | Some _ =>
                  match get_base_element_node g i with
                  | None => raise ResolveException "Base node not found"
                  | Some b =>
                      match get_node g b with
                      | None => raise KeyError "node"
                      | Some nb =>
                          raise_if (negb (level_eqb (n_level n) (n_level nb))) ResolveException "different levels" ;;;
                          raise_if (match n_processed nb, n_parsed n with None, PaEvc _ => false | None, _ => true | _, _ => false end)
                            ResolveException "Base element not found" ;;;
                          ret (Some (b, n_processed nb))
                      end
                  end
              end ;;
      match n_parsed n with
      | PaEvc _ => process_evc_node g i (option_map fst base)
      | p => process_dimable g i p (option_map fst base) (obind base snd)
      end
  end.

(** resolver.py:58-83: the main loop.  [previous] = previous_nodes *)
Definition list_nat_eqb (a b : list nat) : bool := if list_eq_dec Nat.eq_dec a b then true else false.
Fixpoint rounds (fuel : nat) (g : graph) (previous : list nat) : M graph :=
  match fuel with
  | O => raise OutOfFuel "rounds"
  | S f =>
      g1 <- resolve_placeholders g ;;
      match topological_sorted g1 (find_processable g1) with
      | [] => ret g1
      | nodes =>
          raise_if (list_nat_eqb nodes previous) LoopException "Stuck in a loop" ;;;
          g2 <- foldM process_node g1 nodes ;;
          rounds f g2 nodes
      end
  end.

(** ** Resolver: the bottom-up pass *)

Definition is_tmpl (g : graph) (i : nat) : bool := match get_node g i with Some n => n_tmpl n | None => false end.
Definition set_processed (g : graph) (i : nat) (v : processed) : graph :=
  match get_node g i with
  | Some n => set_node g i (mk_node (n_name n) (n_level n) (n_done n) (n_parsed n) (Some v) (n_tmpl n))
  | None => g
  end.
(** node.processed: raises when None; a placeholder has no such attribute *)
Definition node_processed (g : graph) (i : nat) : M processed :=
  match get_node g i with
  | Some n => match n_processed n with Some v => ret v | None => raise ResolveException "Processed attribute of node is None" end
  | None => raise AttributeError "processed"
  end.

Definition processed_size (v : processed) : option Z :=
  match v with PrPer p => op_size (ip_props p) | PrRc (IReg r) => op_size (ir_props r) | PrRc (IClu c _) => op_size (ic_props c)
             | PrFld _ => None end.
(** resolver.py:429-447 _get_parent_size_recursively (fuel: the graph is acyclic) *)
Fixpoint parent_size (g : graph) (fuel : nat) (i : nat) : M Z :=
  match fuel with
  | O => raise OutOfFuel "parent_size"
  | S f =>
      match get_element_parents g i with
      | [] => ret (-1)
      | p :: _ =>
          match get_node g p with
          | None => raise KeyError "node"
          | Some n =>
              match n_level n with
              | LDevice => ret 32
              | _ =>
                  v <- node_processed g p ;;
                  match v with
                  | PrPer _ | PrRc (IClu _ _) =>
                      match processed_size v with Some s => ret s | None => parent_size g f p end
                  | _ => raise ResolveException "Parent of node is not a Peripheral or Cluster"
                  end
              end
          end
      end
  end.
(** resolver.py:402-427 _calculate_size *)
Definition child_size (g : graph) (i : nat) (v : processed) : M Z :=
  match processed_size v with
  | Some s => ret (if s mod 8 =? 0 then s else 0)
  | None => parent_size g (S (length (g_slots g))) i
  end.
Definition calculate_size (g : graph) (children : list nat) : M Z :=
  m <- foldM (fun m i =>
         v <- node_processed g i ;;
         match v with
         | PrRc _ => if is_tmpl g i then ret m else s <- child_size g i v ;; ret (if m <? s then s else m)
         | _ => raise ResolveException "node is not of type Register or Cluster"
         end) (-1) children ;;
  raise_if (m =? -1) ResolveException "max_size can't be -1" ;;;
  ret m.

(** [node.processed for node in children_nodes if not node.is_dim_template] *)
Definition processed_children (g : graph) (children : list nat) : M (list processed) :=
  mapM (fun i => if is_elem g i then node_processed g i else raise AttributeError "is_dim_template") (filter (fun i => negb (is_tmpl g i)) children).

Definition irc_off (x : irc) : Z := match x with IReg r => rb_offset (ir_b r) | IClu c _ => cb_offset (ic_b c) end.
Definition irc_nm (x : irc) : string := match x with IReg r => rb_name (ir_b r) | IClu c _ => cb_name (ic_b c) end.
Definition zs_le (a b : Z * string) : bool := cmp_le (pair_cmp Z.compare str_cmp) a b.
Definition irc_le (x y : irc) : bool := zs_le (irc_off x, irc_nm x) (irc_off y, irc_nm y).
Definition ifield_le (x y : ifield) : bool := zs_le (fb_lsb (if_b x), fb_name (if_b x)) (fb_lsb (if_b y), fb_name (if_b y)).
Definition iper_le (x y : iper) : bool := zs_le (pb_base (ip_b x), pb_name (ip_b x)) (pb_base (ip_b y), pb_name (ip_b y)).

(** the casts: an object of another class has no such attribute *)
Definition as_irc (v : processed) : M irc := match v with PrRc x => ret x | _ => raise AttributeError "address_offset" end.
Definition as_fld (v : processed) : M ifield := match v with PrFld x => ret x | _ => raise AttributeError "lsb" end.
Definition as_per (v : processed) : M iper := match v with PrPer x => ret x | _ => raise AttributeError "base_address" end.

(** resolver.py:351-369: size and sorted children of a peripheral or cluster *)
Definition finalize_rcs (g : graph) (children : list nat) : M (Z * list irc) :=
  s <- calculate_size g children ;;
  vs <- processed_children g children ;;
  xs <- mapM as_irc vs ;;
  ret (s, isort irc_le xs).
Definition with_size (s : Z) (p : oprops) : oprops := mk_oprops (Some s) (op_access p) (op_prot p) (op_rv p) (op_rm p).

(** resolver.py:377-400 _finalize_field_node *)
Definition finalize_evcs (g : graph) (lsb msb : Z) (children : list nat) : M (list ievc) :=
  cs <- mapM (fun i => match get_node g i with
                       | Some n => match n_parsed n with PaEvc e => create_evc e lsb msb | _ => raise AttributeError "enumerated_values" end
                       | None => raise AttributeError "parsed" end) children ;;
  let us := map ievc_usage cs in
  raise_if (negb (match us with
                  | [] | [_] => true
                  | [a; b] => negb (enum_usage_eqb a b)
                  | [a; b; c] => negb (enum_usage_eqb a b) && negb (enum_usage_eqb a c) && negb (enum_usage_eqb b c)
                  | _ => false      (* there are only three usages *)
                  end)) EnumeratedValueContainerException "multiple EnumeratedValueContainers with the same usage" ;;;
  raise_if (2 <? length cs)%nat EnumeratedValueContainerException "more than two EnumeratedValueContainers" ;;;
  raise_if (Nat.eqb (length cs) 2 && existsb (enum_usage_eqb U_READ_WRITE) us) EnumeratedValueContainerException
    "Invalid EnumeratedValueContainer usage combination" ;;;
  ret cs.

(** resolver.py:330-375 _finalize_node.  The device's result is kept apart ([option (list iper)]: _peripherals_resolved) *)
Definition finalize_node (st : graph * option (list iper)) (i : nat) (children : list nat) : M (graph * option (list iper)) :=
  let '(g, res) := st in
  match get_node g i with
  | None => raise AttributeError "is_dim_template"
  | Some n =>
      if n_tmpl n then ret st
      else
        match n_level n with
        | LDevice =>
            vs <- processed_children g children ;;
            ps <- mapM as_per vs ;;
            ret (g, Some (isort iper_le ps))
        | LPeripheral =>
            v <- node_processed g i ;;
            r <- finalize_rcs g children ;;
            match v with
            | PrPer p => ret (set_processed g i (PrPer (mk_iper (ip_b p) (ip_dim p) (with_size (fst r) (ip_props p)) (snd r))), res)
            | _ => raise AttributeError "peripheral"
            end
        | LCluster =>
            v <- node_processed g i ;;
            r <- finalize_rcs g children ;;
            match v with
            | PrRc (IClu c _) => ret (set_processed g i (PrRc (IClu (mk_iclu (ic_b c) (ic_dim c) (with_size (fst r) (ic_props c))) (snd r))), res)
            | _ => raise AttributeError "cluster"
            end
        | LRegister =>
            v <- node_processed g i ;;
            vs <- processed_children g children ;;
            fs <- mapM as_fld vs ;;
            match v with
            | PrRc (IReg r) => ret (set_processed g i (PrRc (IReg (mk_ireg (ir_b r) (ir_dim r) (ir_props r) (isort ifield_le fs)))), res)
            | _ => raise AttributeError "register"
            end
        | LField =>
            v <- node_processed g i ;;
            match v with
            | PrFld f =>
                cs <- finalize_evcs g (fb_lsb (if_b f)) (fb_msb (if_b f)) children ;;
                ret (set_processed g i (PrFld (mk_ifield (if_b f) (if_dim f) (if_access f) cs)), res)
            | _ => raise AttributeError "lsb"
            end
        | LEnum => raise ResolveException "Unknown node type"
        end
  end.

(** graph.py:312-350 bottom_up_node_traversal.  [pending]: for every node the number of successors not yet popped;
    [queue]: nodes to visit.  A node is queued when its last successor has been popped. *)
Definition parents_of (g : graph) (i : nat) : list nat := filter (fun p => mem_nat i (successors g p)) (node_indices g).
Definition dec_pending (pending : list (nat * nat)) (p : nat) : list (nat * nat) :=
  map (fun x => if Nat.eqb (fst x) p then (fst x, pred (snd x)) else x) pending.
(** one parent: decrement, and queue it when its count has become 0 *)
Definition step_parent (st : list (nat * nat) * list nat) (p : nat) : list (nat * nat) * list nat :=
  let pending := dec_pending (fst st) p in
  (pending, if existsb (fun x => Nat.eqb (fst x) p && Nat.eqb (snd x) 0) pending then snd st ++ [p] else snd st).
Fixpoint bottom_up (g0 : graph) (fuel : nat) (pending : list (nat * nat)) (queue : list nat) (st : graph * option (list iper))
  : M (graph * option (list iper)) :=
  match queue with
  | [] => ret st
  | i :: queue' =>
      match fuel with
      | O => raise OutOfFuel "bottom_up"
      | S f =>
          st' <- match successors g0 i with
                 | [] => ret st
                 | children => finalize_node st i children
                 end ;;
          let '(pending', queue'') := fold_left step_parent (parents_of g0 i) (pending, queue') in
          bottom_up g0 f pending' queue'' st'
      end
  end.
Definition bottom_up_traversal (g : graph) : M (graph * option (list iper)) :=
  let pending := map (fun i => (i, length (successors g i))) (node_indices g) in
  let leaves := map fst (filter (fun x => Nat.eqb (snd x) 0) pending) in
  bottom_up g (length (node_indices g)) pending leaves (g, None).

(** resolver.py:58-95 resolve_peripherals.  [fuel] bounds the number of rounds. *)
Definition resolve_peripherals (fuel : nat) (ps : list svd_periph) : M (list iper) :=
  g0 <- initialization ps ;;
  g <- rounds fuel g0 [] ;;
  match unprocessed_nodes g with
  | [] => ret tt
  | _ => mapM (get_placeholder_child g) (g_phs g) ;;;   (* resolver.py:118-125 _get_unresolved_placeholders_info *)
         raise UnprocessedNodesException "Not all nodes were processed"
  end ;;;
  r <- bottom_up_traversal g ;;
  match snd r with
  | None => raise ResolveException "Peripherals not resolved"
  | Some l => ret l
  end.
