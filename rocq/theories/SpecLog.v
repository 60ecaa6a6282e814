(** * SpecLog: what the log of a run should look like.
    A log is a sequence of items: headings, paragraphs, listings, and drawings of the graph.  The drawings are numbered 1, 2, ... in the order
    in which they appear, the rounds likewise. *)
From Verif Require Import Base PyStr PyInt Types ResolveModel.
Local Open Scope string_scope.

Inductive item :=
| Head1 (t : string) | Head2 (t : string) | Head3 (t : string) | Par (t : string)
| RoundHead (n : nat)                             (* the heading of round [n] *)
| Listing (what : string) (lines : list string)   (* a box with one line for each entry *)
| Drawing (g : graph).

Fixpoint lines_text (l : list string) : string :=
  match l with [] => "" | [x] => x | x :: l' => x ++ "<br />" ++ lines_text l' end.
Definition newline : string := String (ascii_of_N 10) "".
(** an item as HTML, given the picture if it is a drawing *)
Definition item_html (picture : string) (i : item) : string :=
  match i with
  | Head1 t => "<h1>" ++ t ++ "</h1>" ++ newline
  | Head2 t => "<h2>" ++ t ++ "</h2>" ++ newline
  | Head3 t => "<h3>" ++ t ++ "</h3>" ++ newline
  | Par t => "<p>" ++ t ++ "</p>" ++ newline
  | RoundHead n => "<h2>" ++ str_of_Z (Z.of_nat n) ++ ". Round</h2>" ++ newline
  | Listing what lines => what ++ ": <div class=""scrollable-div"">" ++ lines_text lines ++ "</div>" ++ newline
  | Drawing _ => "<div class=""svg-container"" style=""width: 100%; height: 60%; border:1px solid black;"">" ++ picture ++ "</div>" ++ newline
  end.
(** [Shown pic k items html k']: the items as HTML, where [pic n g p] says that [p] is the picture number [n] of the graph [g]; [k] pictures
    have been shown before, [k'] have been shown at the end *)
Inductive Shown (pic : nat -> graph -> string -> Prop) : nat -> list item -> string -> nat -> Prop :=
| shown_nil k : Shown pic k [] "" k
| shown_drawing k g p items html k' : pic (S k) g p -> Shown pic (S k) items html k' -> Shown pic k (Drawing g :: items) (item_html p (Drawing g) ++ html) k'
| shown_item k i items html k' : (forall g, i <> Drawing g) -> Shown pic k items html k' -> Shown pic k (i :: items) (item_html "" i ++ html) k'.
(** the numbers in the headings of the rounds *)
Definition round_numbers (items : list item) : list nat := flat_map (fun i => match i with RoundHead n => [n] | _ => [] end) items.

(** One round of a run: the references resolved, the graph then, the elements processed (in this order), the graph after that *)
Record round := mk_round { rd_paths : list string; rd_graph : graph; rd_nodes : list nat; rd_after : graph }.
(** the references resolved, one after the other: [(place, path)] is removed from the graph *)
Inductive References : graph -> list nat -> list string -> graph -> Prop :=
| ref_nil g : References g [] [] g
| ref_kept g p l paths g1 ws : resolve_placeholder g p = (ws, Ok g) -> References g l paths g1 -> References g (p :: l) paths g1
| ref_resolved g p l path paths g1 g2 ws : get_slot g p = Some (NPh path) -> resolve_placeholder g p = (ws, Ok g1) -> get_slot g1 p = None ->
    References g1 l paths g2 -> References g (p :: l) (path :: paths) g2.
Inductive Run : graph -> list round -> graph -> Prop :=
| run_end g paths g1 : References g (g_phs g) paths g1 -> topological_sorted g1 (find_processable g1) = [] -> Run g [mk_round paths g1 [] g1] g1
| run_round g paths g1 nodes ws g2 rs g' : References g (g_phs g) paths g1 -> topological_sorted g1 (find_processable g1) = nodes -> nodes <> [] ->
    foldM process_node g1 nodes = (ws, Ok g2) -> Run g2 rs g' -> Run g (mk_round paths g1 nodes g2 :: rs) g'.

Definition level_label (l : level) : string :=
  match l with LDevice => "Device" | LPeripheral => "Peripheral" | LCluster => "Cluster" | LRegister => "Register" | LField => "Field" | LEnum => "Enum" end.
(** "12: NAME (Register)" *)
Definition element_label (g : graph) (i : nat) : string :=
  match get_node g i with
  | None => ""
  | Some n => str_of_Z (Z.of_nat i) ++ ": "
      ++ match n_name n with None => "no name" | Some t => if String.eqb t "" then "no name" else t end ++ " (" ++ level_label (n_level n) ++ ")"
  end.

Definition start_items (g g0 : graph) : list item :=
  [Head1 "Initialization"; Head2 "Construct Directed Graph"; Par "Graph after construction:"; Drawing g;
   Head2 "Ensure Accurate Parent-Child Relationships for Placeholders";
   Par "Graph after adding parent-child relationships for placeholders:"; Drawing g0; Head1 "Repeating Steps"].
Definition round_items (n : nat) (r : round) : list item :=
  [RoundHead n; Head3 "Resolve Placeholders"]
  ++ (if match rd_paths r with [] => true | _ => false end then [Par "No placeholders resolved in this round"]
      else [Listing "Resolved placeholders" (rd_paths r); Par "Graph after resolving placeholders:"; Drawing (rd_graph r)])
  ++ [Head3 "Processable Elements"]
  ++ (if match rd_nodes r with [] => true | _ => false end then [Par "No processable elements found"]
      else [Listing "Elements to process (sorted by process order ascending)" (map (element_label (rd_graph r)) (rd_nodes r));
            Par "Graph at end of round:"; Drawing (rd_after r)]).
Fixpoint rounds_items (n : nat) (rs : list round) : list item :=
  match rs with [] => [] | r :: rs' => round_items n r ++ rounds_items (S n) rs' end.
Definition end_items : list item := [Par "Repeating steps finished successfully"].

(** the elements of a description in document order: name, kind, derivedFrom *)
Record element := mk_element { el_name : option string; el_level : level; el_derived : option string }.
Definition field_elements (f : svd_field) : list element :=
  mk_element (Some (sf_name f)) LField (sf_derived f) :: map (fun e => mk_element (sevc_name e) LEnum (sevc_derived e)) (sf_evcs f).
Fixpoint rc_elements (x : svd_rc) : list element :=
  match x with
  | SReg r => mk_element (Some (sr_name r)) LRegister (sr_derived r) :: flat_map field_elements (sr_fields r)
  | SClu c l => mk_element (Some (sc_name c)) LCluster (sc_derived c) :: flat_map rc_elements l
  end.
Definition elements (ps : list svd_periph) : list element :=
  flat_map (fun p => mk_element (Some (sp_name p)) LPeripheral (sp_derived p) :: flat_map rc_elements (sp_rcs p)) ps.
(** the line for an element with the number [i] *)
Definition element_line_text (i : nat) (e : element) : string :=
  str_of_Z (Z.of_nat i) ++ ": " ++ match el_name e with None => "no name" | Some t => if String.eqb t "" then "no name" else t end ++ " (" ++ level_label (el_level e) ++ ")".
(** the numbers and the lines of all elements listed in the rounds *)
Definition listed (rs : list round) : list nat := flat_map rd_nodes rs.
Definition listed_lines (rs : list round) : list string := flat_map (fun r => map (element_label (rd_graph r)) (rd_nodes r)) rs.
