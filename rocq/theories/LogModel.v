(** * LogModel: the resolver's HTML log.
    /repo/src/svdsuite/resolve/logger.py, util/html_generator.py:174-260, and the calls of the logger in resolve/resolver.py:58-116,
    246-266 and process.py:80-134.

    Drawing a graph ([ResolverGraph.get_svg], graph.py:352-400: Graphviz and a temporary file), the change of the attributes of the drawing
    ([HTMLGenerator._modify_svg], html_generator.py:236-253: lxml) and the compression (html_generator.py:255-260: gzip, base64) are
    parameters; the first two may raise.  The two page templates (html_generator.py:8-172) are parameters as well. *)
From Verif Require Import Base PyStr PyInt Types ElemModel FinalModel ResolveModel ProcessModel.
Local Open Scope string_scope.

(** The state of a ResolverLogger and its HTMLGenerator: is a file name given; _body_content; the last number of _svd_counter and of
    _current_round_counter; _current_round_resolved_placeholders; the texts written to the file so far (_html_file_generated: not empty) *)
Record log := mk_log { lg_active : bool; lg_body : string; lg_svgs : nat; lg_rounds : nat; lg_resolved : list string;
                       lg_files : list string }.
(** logger.py:10-17 (ResolverLogger.__init__) and html_generator.py:178-183 *)
Definition new_log (path : option string) : log := mk_log (is_some path) "" 0 0 [] [].

(** computations that log: the log is kept when an exception is raised *)
Definition LM (A : Type) : Type := log -> log * M A.
Definition lret {A} (x : A) : LM A := fun s => (s, ret x).
Definition lift {A} (m : M A) : LM A := fun s => (s, m).
Definition lbind {A B} (m : LM A) (f : A -> LM B) : LM B := fun s =>
  let '(s1, r) := m s in
  match r with
  | (ws, Err e) => (s1, (ws, Err e))
  | (ws, Ok x) => let '(s2, (ws', r')) := f x s1 in (s2, ((ws ++ ws')%list, r'))
  end.
Fixpoint lfoldM {A B} (f : A -> B -> LM A) (a : A) (l : list B) : LM A :=
  match l with
  | [] => lret a
  | x :: l' => lbind (f a x) (fun a' => lfoldM f a' l')
  end.

Definition nat_text (n : nat) : string := str_of_Z (Z.of_nat n).
(** graph_elements.py:9-15, the values of ElementLevel *)
Definition level_text (l : level) : string :=
  match l with LDevice => "Device" | LPeripheral => "Peripheral" | LCluster => "Cluster" | LRegister => "Register"
             | LField => "Field" | LEnum => "Enum" end.
(** [sep.join(l)] *)
Fixpoint join (sep : string) (l : list string) : string :=
  match l with [] => "" | [x] => x | x :: l' => x ++ sep ++ join sep l' end.
Definition nl : string := String (ascii_of_N 10) "".

Section Log.
  Context (draw : graph -> string + exn) (modify : string -> nat -> string + exn) (pack : string -> string).
  Context (content_template packer_template : string).

  (** html_generator.py:188-192, 213-220: append to the body *)
  Definition append (t : string) : LM unit := fun s =>
    (mk_log (lg_active s) (lg_body s ++ t) (lg_svgs s) (lg_rounds s) (lg_resolved s) (lg_files s), ret tt).
  (** html_generator.py:194-201 add_h1, add_h2, add_h3 *)
  Definition add_h1 (t : string) : LM unit := append ("<h1>" ++ t ++ "</h1>" ++ nl).
  Definition add_h2 (t : string) : LM unit := append ("<h2>" ++ t ++ "</h2>" ++ nl).
  Definition add_h3 (t : string) : LM unit := append ("<h3>" ++ t ++ "</h3>" ++ nl).
  (** html_generator.py:212-216 *)
  Definition add_div (descr content : string) : LM unit :=
    append (descr ++ ": <div class=""scrollable-div"">" ++ content ++ "</div>" ++ nl).
  Definition add_paragraph (t : string) : LM unit := append ("<p>" ++ t ++ "</p>" ++ nl).
  (** html_generator.py:174-176, 188-192 add_svg: the template has one SVG_CONTENT *)
  Definition svg_block (svg : string) : string :=
    "<div class=""svg-container"" style=""width: 100%; height: 60%; border:1px solid black;"">" ++ svg ++ "</div>" ++ nl.
  (** add_svg(get_svg()); the number is taken before the drawing is changed *)
  Definition add_svg (g : graph) : LM unit := fun s =>
    match draw g with
    | inr e => (s, ([], Err e))
    | inl t =>
        let k := S (lg_svgs s) in
        let s1 := mk_log (lg_active s) (lg_body s) k (lg_rounds s) (lg_resolved s) (lg_files s) in
        match modify t k with
        | inr e => (s1, ([], Err e))
        | inl t' => append (svg_block t') s1
        end
    end.
  (** html_generator.py:255-260, 225-234: the text of the file *)
  Definition page (body : string) : string :=
    replace "COMPRESSED_DATA"
      (pack (replace "SVG_PAN_ZOOM_INSTANCES" "" (replace "BODY_CONTENT" body content_template))) packer_template.
  (** html_generator.py:222-234 generate_html_file *)
  Definition generate (s : log) : log :=
    match lg_files s with
    | [] => mk_log (lg_active s) (lg_body s) (lg_svgs s) (lg_rounds s) (lg_resolved s) [page (lg_body s)]
    | _ => s
    end.
  (** html_generator.py:185-186 __del__: an HTMLGenerator exists only if a file name was given, logger.py:16-17 *)
  Definition destroy (s : log) : log := if lg_active s then generate s else s.

  (** logger.py:19-26 _only_execute_if_logging_is_active *)
  Definition when_active (m : LM unit) : LM unit := fun s => if lg_active s then m s else (s, ret tt).
  Notation "a ;;+ b" := (lbind a (fun _ => b)) (at level 61, right associativity).

  (** logger.py:28-33 *)
  Definition log_init_constructed_graph (g : graph) : LM unit := when_active
    (add_h1 "Initialization" ;;+ add_h2 "Construct Directed Graph" ;;+ add_paragraph "Graph after construction:" ;;+ add_svg g).
  (** logger.py:35-39 *)
  Definition log_parent_child (g : graph) : LM unit := when_active
    (add_h2 "Ensure Accurate Parent-Child Relationships for Placeholders" ;;+
     add_paragraph "Graph after adding parent-child relationships for placeholders:" ;;+ add_svg g).
  (** logger.py:41-43 *)
  Definition log_repeating_steps_start : LM unit := when_active (add_h1 "Repeating Steps").
  (** logger.py:45-47 *)
  Definition log_round_start : LM unit := when_active (fun s =>
    let n := S (lg_rounds s) in
    add_h2 (nat_text n ++ ". Round") (mk_log (lg_active s) (lg_body s) (lg_svgs s) n (lg_resolved s) (lg_files s))).
  (** logger.py:49-52 *)
  Definition log_round_end (g : graph) : LM unit := when_active (add_paragraph "Graph at end of round:" ;;+ add_svg g).
  (** logger.py:54-57 *)
  Definition log_loop_detected : LM unit := when_active (add_paragraph "Loop detected" ;;+ (fun s => (generate s, ret tt))).
  (** logger.py:59-61 *)
  Definition log_repeating_steps_finished : LM unit := when_active (add_paragraph "Repeating steps finished successfully").
  (** logger.py:63-65 *)
  Definition log_resolved_placeholder (path : string) : LM unit := when_active (fun s =>
    (mk_log (lg_active s) (lg_body s) (lg_svgs s) (lg_rounds s) (lg_resolved s ++ [path])%list (lg_files s), ret tt)).
  (** logger.py:67-80 *)
  Definition log_resolve_placeholder_finished (g : graph) : LM unit := when_active (fun s =>
    (add_h3 "Resolve Placeholders" ;;+
     match lg_resolved s with
     | [] => add_paragraph "No placeholders resolved in this round"
     | paths => add_div "Resolved placeholders" (join "<br />" paths) ;;+
                add_paragraph "Graph after resolving placeholders:" ;;+ add_svg g
     end ;;+
     (fun s => (mk_log (lg_active s) (lg_body s) (lg_svgs s) (lg_rounds s) [] (lg_files s), ret tt))) s).
  (** logger.py:92-95: one line of the list of elements; [node.name or 'no name'] *)
  Definition element_line (g : graph) (i : nat) : string :=
    match get_node g i with
    | Some n => nat_text i ++ ": " ++ match n_name n with Some (String _ _ as s) => s | _ => "no name" end ++ " (" ++ level_text (n_level n) ++ ")"
    | None => ""
    end.
  (** logger.py:82-99 *)
  Definition log_processable_elements (g : graph) (nodes : list nat) : LM unit := when_active
    (add_h3 "Processable Elements" ;;+
     match nodes with
     | [] => add_paragraph "No processable elements found"
     | _ => add_div "Elements to process (sorted by process order ascending)" (join "<br />" (map (element_line g) nodes))
     end).
  (* logger.py:101-103 log_finalize is never called *)

  (** resolver.py:246-266: the derive path is logged when the placeholder has been replaced, that is, removed from the graph *)
  Definition resolve_placeholder_l (g : graph) (ph : nat) : LM graph :=
    lbind (lift (resolve_placeholder g ph)) (fun g' =>
      match get_slot g ph, get_slot g' ph with
      | Some (NPh path), None => log_resolved_placeholder path ;;+ lret g'
      | _, _ => lret g'
      end).
  (** resolver.py:105-109 *)
  Definition resolve_placeholders_l (g : graph) : LM graph :=
    lbind (lfoldM resolve_placeholder_l g (g_phs g)) (fun g' => log_resolve_placeholder_finished g' ;;+ lret g').
  (** resolver.py:63-81 *)
  Fixpoint rounds_l (fuel : nat) (g : graph) (previous : list nat) : LM graph :=
    match fuel with
    | O => lift (raise OutOfFuel "rounds")
    | S f =>
        log_round_start ;;+
        lbind (resolve_placeholders_l g) (fun g1 =>
          let nodes := topological_sorted g1 (find_processable g1) in
          log_processable_elements g1 nodes ;;+
          match nodes with
          | [] => lret g1
          | _ =>
              if list_nat_eqb nodes previous then log_loop_detected ;;+ lift (raise LoopException "Stuck in a loop")
              else
                lbind (lift (foldM process_node g1 nodes)) (fun g2 =>
                  log_round_end g2 ;;+ rounds_l f g2 nodes)
          end)
    end.
  (** resolver.py:58-103 *)
  Definition resolve_peripherals_l (fuel : nat) (ps : list svd_periph) : LM (list iper) :=
    lbind (lift (construct_graph ps)) (fun g =>
    log_init_constructed_graph g ;;+
    lbind (lift (foldM link_placeholder g (g_phs g))) (fun g0 =>
    log_parent_child g0 ;;+
    log_repeating_steps_start ;;+
    lbind (rounds_l fuel g0 []) (fun g =>
    log_repeating_steps_finished ;;+
    lift (match unprocessed_nodes g with
          | [] => ret tt
          | _ => mapM (get_placeholder_child g) (g_phs g) ;;;
                 raise UnprocessedNodesException "Not all nodes were processed"
          end ;;;
          r <- bottom_up_traversal g ;;
          match snd r with
          | None => raise ResolveException "Peripherals not resolved"
          | Some l => ret l
          end)))).
  (** process.py:80-134: constructing a Process, with the optional name of the log file *)
  Definition process_logged (fuel : nat) (path : option string) (d : svd_device) : log * M device :=
    let '(s, r) := resolve_peripherals_l fuel (sdv_periphs d) (new_log path) in
    (s, ps <- wrap r ;; finalize (inherit_properties (mk_idev (process_device_base d) ps))).
End Log.
