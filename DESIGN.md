# Formal model of SVDSuite in Rocq (Coq 8.16.1)

Source: `/repo/src/svdsuite` at the pinned commit (read as text, never run).
Model and proofs: `rocq/theories/*.v`, standard library only.  Generated by `tools/gen_design.py` from `tools/design_*.md`, `properties.jsonl`
and `MANIFEST.json`.

## How the code is modelled

* Shallow, executable Gallina functions mirror the Python functions branch by branch.  Every definition of a model file cites the file and the
  lines in `/repo`; simplifications are stated there.  Python `int` = `Z`, `None | T` = `option T`, lists = `list`, dataclasses = records, the
  `Register | Cluster` union = nested inductive types.
* Exceptions and `warnings.warn` calls are values: `M A` (Base.v) = the warnings issued so far together with either a result or an exception
  (class + site).  A raise keeps the warnings issued before it.
* Loops are structural recursion or folds.  Loops of the code without structural measure run on fuel with the distinguished outcome
  `EOutOfFuel`: the main loop of the resolver (fuel is an argument of `process_device`; statements quantify over it: `Processes d ws dev` means
  "for some bound on the rounds", `Processes_det`: the outcome does not depend on it) and the search for alternates (a theorem shows that the
  fuel passed suffices).
* Specifications (`Spec*.v`) use the data types and the text/number vocabulary only, never the function that the theorem is about.

| file | models |
|----|----|
| Base.v | exceptions, warnings, Python's stable sort |
| PyStr.v, PyInt.v | the `str` and `int` operations used (`split`, `strip`, `replace`, `lower`, `in`, `int(text, base)`, `str(int)`, `hex`) |
| Types.v | model/types.py, model/parse.py, model/process.py (the data classes) |
| EnumModel.v | process.py:1184-1344 (`_ProcessEnumeratedValueContainer`, validator, default extension) |
| DimModel.v | process.py:471-503, 1091-1181 (`_ProcessDimension`) |
| ElemModel.v | process.py:136-464 (`_process_device/_cpu/_peripheral/_cluster/_register/_field`) |
| ResolveModel.v | resolve/graph_elements.py, graph.py, graph_builder.py, resolver.py, process.py:90-134 |
| FinalModel.v | process.py:506-1088 (`_InheritProperties`, `_ValidateAndFinalize`), `from_intermediate_*` |
| ProcessModel.v | process.py:80-134, the whole pipeline |
| MapModel.v | map.py, model/map.py |
| ConvertModel.v | util/process_parse_model_convert.py |
| ParseModel.v | parse.py over an XML element tree |
| SerializeModel.v | serialize.py, and the effect of writing and reading a tree (`Reread`) |
| XmlReadModel.v | util/xml_parse.py over an arbitrary decoder |
| LinkModel.v | parse.py, util/process_parse_model_convert.py (objects and their `parent`) |
| LogModel.v, DrawModel.v | resolve/logger.py, util/html_generator.py, graph.py:352-400 (what is drawn) |
| ValidateModel.v | validate.py over an arbitrary XML library and file system |

Theorems are in `Props*.v`; the lemmas they rest on in `*Facts*.v`, `Expand*.v`, `RoundTrip.v`, `ResolveWF.v`, `ResolveInv.v`, `FinalErr.v`;
witnesses in `Samples.v`, `SamplesParse.v` and `Example`s beside the theorems (`Cxx_nonvacuous`).

A name ending in `_refuted` is a machine-checked counterexample: the property, read literally, is false of the code, and the theorem exhibits a
description (evaluated by the kernel) that violates it.  The `_partial` theorems next to it say what does hold.

## Plan per property

| id | property | what is modelled, how it is proved | status | theorems |
|----|----|----|----|----|
| C01 | Don't-care enumerated values expand to exactly the matching integers | `_convert_enumerated_value` incl. `itertools.product`; independent digit-wise matching relation (SpecEnum); membership iff, no duplicates, ascending; lifted to whole devices | proved | `C01_wildcard_single` (PropsEnum.v); `C01_wildcard_container` (PropsEnum.v); `C01_device_wildcards` (PropsResolve.v) |
| C02 | Enumerated values of a processed container are distinct, ascending and in range | enum expansion, validator, default extension, finalization filter; invariant over the folds; lifted to devices through the image relation | proved | `C02_device_values` (PropsResolve.v); `C02_values_distinct_ascending_in_range` (PropsEnum.v) |
| C03 | A default enumerated value completes the container | `_extend_default_enum` within the whole container processing; set equality with 0..2^w-1, origin of the names | proved | `C03_default_completes` (PropsEnum.v); `C03_device_default` (PropsResolve.v) |
| C04 | Enumerated value names inside one container are unique | same; refuted by the default extension, which can generate a name already in use; proved for containers without default | partial | `C04_names_unique_partial` (PropsEnum.v); `C04_names_unique_refuted` (PropsEnum.v) |
| C05 | dim expansion creates exactly dim instances at base + i*dimIncrement | `_extract_and_process_dimension`, name and offset computation; relation Subst for "replace the placeholder"; functional specification per kind of element | proved | `C05_dim_instances` (PropsDim.v); `C05_no_dim_single` (PropsDim.v) |
| C06 | dim expansion never produces the same name twice for different indices | injectivity of substitution and of the index lists | proved | `C06_names_differ` (PropsDim.v) |
| C07 | dimIndex notation means what the standard says | the three dimIndex notations as a grammar (SpecDim.Index); exactly the listed indices, descending ranges rejected | proved | `C07_dim_index` (PropsDim.v); `C07_descending` (PropsDim.v) |
| C08 | Malformed dim descriptions are reported as ProcessException | decision of every malformed case; refuted for texts that make `int()`/indexing raise ValueError/TypeError | partial | `C08_malformed_rejected_partial` (PropsDim.v); `C08_malformed_refuted` (PropsDim.v) |
| C09 | The three bit-position notations are equivalent | `_process_field_msb_lsb_with_increment`; equational; the bitRange pattern as a grammar | proved | `C09_field_bits` (PropsElem.v); `C09_no_bits_rejected` (PropsElem.v); `C09_notations_equivalent` (PropsElem.v) |
| C10 | derivedFrom copies exactly the unspecified properties | `_process_peripheral/_cluster/_register/_field` with a base; attribute by attribute | proved | `C10_peripheral` (PropsElem.v); `C10_cluster` (PropsElem.v); `C10_register` (PropsElem.v); `C10_field` (PropsElem.v); `C10_no_base` (PropsElem.v) |
| C11 | Register properties come from the nearest level that specifies them | `_InheritProperties` through finalization; path-indexed specification "nearest level that states it" | proved | `C11_nearest_level` (PropsDevice.v) |
| C12 | Effective size follows the documented adjustment algorithm | SpecSize states the sizes as a recursive maximum over the description; proved by induction over the description from the expansion (C38) and the image of the validation (C11); the clause about the size of the device is refuted by a witness | partial | `C12_effective_sizes_partial` (PropsSize.v); `C12_device_size_refuted` (PropsErrors.v) |
| C13 | Absolute addresses are the sum of the offsets on the path | finalization: absolute address = base + sum of offsets, along the path of Below | proved | `C13_absolute_addresses` (PropsDevice.v) |
| C14 | The processed device is sorted | every list of the processed device sorted by the stated key; invariant of the resolver's output and of finalization | proved | `C14_sorted` (PropsResolve.v) |
| C15 | Names are unique where users look elements up by name | no duplicate names per scope in any accepted device, incl. flattened registers | proved | `C15_unique_names` (PropsDevice.v) |
| C16 | Fields that can be read (written) together never overlap | field overlap check; accepted iff no readable/writable pair shares a bit | proved | `C16_no_shared_bits` (PropsCheck.v); `C16_accepted_iff` (PropsCheck.v); `C16_rejected` (PropsCheck.v) |
| C17 | Overlapping registers/clusters are always reported | both directions: every overlap of non-alternates is reported, every report is justified | proved | `C17_overlaps_reported` (PropsCheck.v); `C17_overlaps_justified` (PropsCheck.v) |
| C18 | Overlapping peripherals are always reported | same for peripherals | proved | `C18_overlaps_reported` (PropsCheck.v); `C18_overlaps_justified` (PropsCheck.v) |
| C19 | The set of permitted alternates is the connected alternate family | search for alternates; fuel suffices; the set found is the connected component (inductive closure) | proved | `C19_family` (PropsCheck.v); `C19_family_strict` (PropsCheck.v) |
| C20 | Elements disappear only for announced reasons | finalization: every element of the resolved device is in the result unless a warning names it | proved | `C20_nothing_lost` (PropsDevice.v) |
| C21 | peripheral.registers is the flattened register tree | `registers` of a peripheral = depth-first list of its register tree | proved | `C21_flattened_registers` (PropsDevice.v); `C21_flattened_registers_in` (PropsDevice.v) |
| C22 | Computed extents enclose all children tightly | size/end address of clusters, registers, peripherals are the maxima over the children | proved | `C22_extents` (PropsDevice.v) |
| C23 | The memory map shows every register at its absolute address | map.py: entries = all registers at their absolute addresses, sorted | proved | `C23_memory_map` (PropsMap.v) |
| C24 | allocated_range spans all address blocks | allocated_range; refuted for nested address blocks; proved for disjoint blocks | partial | `C24_allocated_range_partial` (PropsMap.v); `C24_allocated_range_start` (PropsMap.v); `C24_allocated_range_refuted` (PropsMap.v) |
| C25 | Integers survive writing and reading | `_to_int`, `int()`, `str()`, `hex()`; grammar of numerals with values (SpecText); refuted clause: '#' inside a number is dropped | partial | `C25_written_read` (PropsText.v); `C25_reads_numerals` (PropsText.v); `C25_binary` (PropsText.v); `C25_rejects_partial` (PropsText.v); `C25_rejects_refuted` (PropsText.v) |
| C26 | Booleans and enumerated attribute types survive writing and reading | `_to_bool`, keyword enumerations; total tables and round trips | proved | `C26_booleans` (PropsText.v); `C26_keywords` (PropsText.v); `C26_unknown_rejected` (PropsText.v); `C26_cpu` (PropsText.v); `C26_access` (PropsText.v) |
| C27 | Serializing a device and parsing it again yields the same device | parse.py after serialize.py over XML trees; relation kept_* says what is read back, for every device; refuted in general | partial | `C27_round_trip_partial` (PropsRoundTrip.v); `C27_exactly_kept` (PropsRoundTrip.v); `C27_only_faithful` (PropsRoundTrip.v); `C27_serialize_total` (PropsRoundTrip.v); `C27_characters` (PropsRoundTrip.v); `C27_round_trip_refuted` (PropsRoundTrip.v) |
| C28 | Parser element selection rules | parse.py; declarative reading relation (SpecParse), both directions, determinism, error classes | proved | `C28_reads` (PropsParse.v); `C28_missing` (PropsParse.v); `C28_error_classes` (PropsParse.v); `C28_unambiguous` (PropsParse.v) |
| C29 | XML decoding fallback order | util/xml_parse.py over an arbitrary decoder; enumeration of the attempts in order | proved | `C29_fallback_order` (PropsText.v) |
| C30 | Converting a processed device back keeps all information | converter; SpecConvert.Shows attribute by attribute; nothing lost (injective up to stated details) | proved | `C30_shows_everything` (PropsConvert.v); `C30_nothing_lost` (PropsConvert.v); `C30_exported` (PropsConvert.v) |
| C31 | Processing is idempotent | convert a processed device and process it again: invariants of every processed device (AgainFacts), its description expands plainly (C49) to elements with the same attributes (AgainExpand), which validation maps to the device again; exact characterisation of acceptance and outcome; refuted in general (four witnesses) | partial | `C31_again` (PropsAgain.v); `C31_identity_iff` (PropsAgain.v); `C31_idempotent_refuted` (PropsAgain.v) |
| C32 | No unresolved derivedFrom is ever ignored | resolver's main loop; derivation is applied for peripherals, registers, fields; refuted for enumerated value containers | partial | `C32_C35_derivation_applied_partial` (PropsExpand.v); `C32_C35_enum_containers_refuted` (PropsErrors.v) |
| C33 | Circular derivedFrom is never accepted | a set of elements each of which can only be derived from one of the set is rejected (no round can process any of them: invariant of the loop), also when the set is closed only among siblings that name each other by plain names; refuted for enumerated value containers | partial | `C33_circular_rejected_partial` (PropsTerm.v); `C33_peripheral_cycle_rejected` (PropsTerm.v); `C33_circular_siblings_rejected` (PropsTerm.v); `C33_sibling_cycle_rejected` (PropsTerm.v); `C33_enum_containers_refuted` (PropsTerm.v) |
| C34 | The resolver's dependency graph stays acyclic and well formed | record WF of the graph: acyclic, unique parents/levels, every edge between nodes; preserved by every operation; holds of all graphs the resolver goes through | proved | `C34_acyclic_wellformed` (PropsGraph.v); `C34_resolver_graphs` (PropsGraph.v) |
| C35 | Bases are processed before the elements derived from them | same theorem as C32: the base's value is one of the values the base stands for when it is processed | partial | `C32_C35_derivation_applied_partial` (PropsExpand.v); `C32_C35_enum_containers_refuted` (PropsErrors.v) |
| C36 | derivedFrom path lookup | `_search_*`; a path is followed downwards from the scopes; exactly one candidate or an exception | proved | `C36_path_lookup` (PropsGraph.v); `C36_candidates` (PropsGraph.v); `C36_ambiguous_raises` (PropsGraph.v) |
| C37 | A derived element receives a copy of its base's children | `replicate_descendants`: an isomorphic copy of the subtree (Replicated), originals untouched | proved | `C37_children_copied` (PropsGraph.v); `C37_applied` (PropsGraph.v) |
| C38 | Without derivedFrom, resolution is plain tree expansion | resolver vs. plain recursive expansion (SpecExpand.PlainExpansion): refinement by the invariant of ExpandInv | proved | `C38_plain_expansion` (PropsExpand.v) |
| C39 | CPU description is completed with the documented defaults | `_process_cpu`; functional | proved | `C39_cpu_defaults` (PropsElem.v) |
| C40 | At most one read and one write enumeration per field | containers of a field: usage read/write at most once each, read-write alone | proved | `C40_read_write_containers` (PropsResolve.v); `C40_container_usage` (PropsResolve.v) |
| C41 | Register and cluster sizes are machine sizes | accepted sizes are 8, 16, 32, 64; others are rejected | proved | `C41_machine_sizes` (PropsDevice.v); `C41_other_sizes_rejected` (PropsDevice.v) |
| C42 | Processing terminates | termination of the main loop: lexicographic measure (number of unfinished elements per level); other loops are structural | partial | `C42_terminates_partial` (PropsTerm.v); `C42_loop_check_never_fires` (PropsRaise.v) |
| C43 | Semantic errors surface as ProcessException | refuted (KeyError, AttributeError, ResolveException leave Process); exact list of classes that can, and of the statements they come from: thirteen, each reached by a description (C43_exact, C43_classes_exact; EdgeFacts.v, DepFacts.v, ErrFacts.v, from the invariants of the graph: levels of joined elements, one parent and one element per reference, at most one base per peripheral, kinds and levels of the elements joined by edges, every declared element has a value, every round is sound); all others are ProcessException; KeyError only after the peripherals have been resolved, with the name of an alternate that a peripheral or a cluster of the resolved device gives (KeyFacts.v) | partial | `C43_finalization_errors_partial` (PropsErrors.v); `C43_error_classes` (PropsErrors.v); `C43_raw_sources` (PropsRaise.v); `C43_key_error` (PropsRaise.v); `C43_key_error_names` (PropsRaise.v); `C43_sources_reached` (PropsRaise.v); `C43_exact` (PropsRaise.v); `C43_classes_exact` (PropsRaise.v); `C43_only_ProcessException_refuted` (PropsErrors.v) |
| C44 | Defects of single elements are diagnosed exactly | alignment, field outside register, overlapping blocks: reported iff present | proved | `C44_defects_reported` (PropsDiag.v); `C44_diagnostics_justified` (PropsDiag.v) |
| C45 | An accepted device is structurally complete | accepted devices satisfy the structural rules; the stated defects are rejected | proved | `C45_accepted_structure` (PropsDiag.v); `C45_both_alternates_rejected` (PropsDiag.v); `C45_no_blocks_rejected` (PropsDiag.v) |
| C46 | A processed device is exactly the expansion of its description | (sizes: a child without size takes one from the first element around it in the graph, which may be another instance; the bottom-up pass visits nodes by increasing height, so the instances that are done already have the same children, hence the same size, unless a base contains derived registers or fields, see QuietBases; for those and arrays with children without size the size is left open) (derived clusters allowed outside of bases; inside of a base peripheral if derived peripherals state names of peripherals) resolver vs. SpecExpand.Expansion with derivedFrom: invariant of the graph through build, placeholder resolution, replication, dim expansion and the bottom-up pass; Elab carries the list of effective siblings (ExpandScope), among which the base of a plain name is found | proved | `C46_expansion` (PropsExpand.v); `C46_every_element` (PropsExpand.v); `C46_children_among_siblings` (PropsExpand.v); `C46_nothing_invented` (PropsExpand.v) |
| C47 | Derived clusters are expanded like other elements | counterexample (a base that contains derived clusters); positive part: C46's theorem, with the count of derivation edges per derived element as additional invariant (ExpandLeft) | partial | `C46_expansion` (PropsExpand.v); `C32_C35_derivation_applied_partial` (PropsExpand.v); `C47_derived_clusters_refuted` (PropsExpand.v) |
| C48 | The validator answers for the chosen schema version | validate.py over arbitrary XML library functions and file system; packaging's version order vs. component-wise order with missing components 0 | proved | `C48_latest` (PropsValidate.v); `C48_verdict` (PropsValidate.v); `C48_default` (PropsValidate.v); `C48_packaged` (PropsValidate.v); `C48_distinct_files` (PropsValidate.v) |
| C49 | Descriptions that keep the element rules are accepted by the resolver | resolver on descriptions without derivedFrom: every step of build, dim, enum expansion and bottom-up pass shown to succeed under SpecAccept.ElementRules (BuildOk, AcceptFacts; special case of C52), termination from C42; with C46 the result is the plain expansion | proved | `C49_resolved` (PropsAccept.v); `C49_accepted_iff` (PropsAccept.v) |
| C50 | Validation accepts exactly the devices that keep its rules | inheritance and validation against SpecAccept.Acceptable (Kept/Dropped/Sift by mutual induction over the tree), both directions (FinalAccept) | proved | `C50_accepted_iff` (PropsAccept.v); `C50_rejected_iff` (PropsAccept.v) |
| C51 | What processing a processed device again yields | see C31; the outcome is given by SpecAgain.again_dev and SpecAgain.Rereadable, stability by the idempotence of again_dev | proved | `C31_again` (PropsAgain.v); `C31_settles` (PropsAgain.v); `C31_identity_iff` (PropsAgain.v) |
| C52 | Descriptions in which only peripherals are derived are accepted by the resolver | resolver on descriptions in which only peripherals are derived (SpecAccept.DerivedRules): building the graph (BuildOk), finding the base of a reference and topological order (LookupOk), each processing step, the copying of children and the rounds (AcceptFacts) shown to succeed; expansion from C46, validation from C50 | proved | `C52_resolved` (PropsAccept.v); `C52_accepted_iff` (PropsAccept.v) |
| C53 | The order in which siblings are written does not matter | two descriptions related by SpecOrder.Shuffled; their expansions (C52, C46) are shown to agree up to the order of siblings (OrderFacts: what an element stands for is determined by its attributes and base; OrderPer: bases of peripherals and preservation of the rules; OrderDeep: the same for elements derived from siblings at every level, by induction on the chain of bases and on the finished values), and the finalisation to yield the same sorted device for both (OrderFinal); refuted by computation for a derived register written before its base | partial | `C53_order_of_siblings_partial` (PropsOrder.v); `C53_order_derived_siblings_partial` (PropsOrder.v); `C53_order_refuted` (PropsOrder.v) |
| C54 | Loading a file, processing it, exporting the result and loading the export gives the device back | SpecExport lists the texts of a description; C54_read_trimmed follows from the reading relation of C28; ExportFacts shows by an invariant of the resolver graph (ResolveInv.Closed) and induction over the validation that every text of a processed device is a text of the description or made from ones by substituting an index or appending a number, hence not empty and not padded; so C27 and C31 apply to the exported device | proved | `C54_file_to_file` (PropsExport.v); `C54_same_device` (PropsExport.v); `C54_read_trimmed` (PropsExport.v); `C54_empty_refuted` (PropsExport.v) |
| C55 | Display names of the instances of a register array or list | substitution as in C05 (Subst), with a lemma that inserting decimal numbers never creates a new placeholder; the derived case is refuted by a computed witness | partial | `C55_display_instances_partial` (PropsDisplay.v); `C55_derived_display_refuted` (PropsDisplay.v) |
| C56 | Elements derived from those written beside them are accepted by the resolver, at every level | resolver on descriptions with derived elements at every level (SpecAccept.SiblingRules): AcceptDeep generalises AcceptFacts: an invariant of the rounds (what is below something unprocessed is unprocessed, every unprocessed derived node waits for a reference or its base, references lead to exactly one sibling) shows that every reference is found once the parent is processed, that a round never gets stuck and that each processing step succeeds; PropsDeep derives the local conditions from the rules by induction on the derivation (what is taken over: dim, dimIndex, displayName, bits, contents); expansion from C46, validation from C50 | proved | `C56_resolved` (PropsDeep.v); `C56_accepted_iff` (PropsDeep.v) |
| C57 | Schema-valid documents are read | SpecSchema.v transcribes 1.3.11.xsd (simple types as regular expressions, complex types as particles) and defines validity, with a switch for two restricted schemas; SchemaFacts/SchemaText (derivatives of regular expressions, counting of children of a particle), SchemaRead (every valid element is read, by the relational reading of SpecParse, through the nesting of clusters), SchemaMono (the restricted schemas are restrictions); C28 turns the reading into a run of the parser. | proved | `C57_valid_read` (PropsSchema.v); `C57_scopes` (PropsSchema.v); `C57_restrictions_needed` (PropsSchema.v) |
| C58 | Valid documents are rewritten as valid documents and survive it | SpecConform.v states which descriptions the schema allows; SchemaWrite shows their documents valid, element by element, SchemaRead that what is read from a valid document conforms, SchemaKept that it survives (C27). Refutations for exports by counting the children of written elements. | proved | `C58_written` (PropsSchema.v); `C58_rewritten` (PropsSchema.v); `C58_survives` (PropsSchema.v); `C58_restrictions_needed` (PropsSchema.v); `C58_export_refuted` (PropsSchema.v); `C58_export_values_refuted` (PropsSchema.v) |
| C59 | The notations of the schema are understood by the processing | The languages of the schema (SpecSchema.v) are inverted into the notations of SpecEnum, SpecElem and SpecDim; values: `ValueOf` is an independent relation between a text and the numbers it denotes. Files: read_conform (C58) gives ElementRules/DerivedRules, then C49, C50, C52. | proved | `C59_enum_values` (PropsNotation.v); `C59_enum_plus` (PropsNotation.v); `C59_bit_ranges` (PropsNotation.v); `C59_dim_index` (PropsNotation.v); `C59_file_resolved` (PropsNotation.v); `C59_file_resolved_derived` (PropsNotation.v) |
| C60 | The log of the resolver is faithful and has no influence | LogModel.v threads the state of the logger through the model of the resolver (drawing, compression and templates are parameters; drawing may fail). Transparency: two relations (quiet, erasing) closed under the monads. Contents: every logging method writes items of SpecLog.v; `Run` relates the rounds to the steps of the resolver; elements: each process_node finishes one node and keeps all others, construction creates one node per element of the description. | proved | `C60_same_outcome` (PropsLog.v); `C60_written_once` (PropsLog.v); `C60_numbered` (PropsLog.v); `C60_story` (PropsLog.v); `C60_file_on_return_refuted` (PropsLog.v); `C60_escaped_refuted` (PropsLog.v) |
| C61 | The pictures in the log show the state of the resolution | DrawModel.v: the attribute dictionaries handed to Graphviz. Legend in SpecDraw.v. Texts: the last blank and the last parenthesis of a label separate its parts. Last picture: invariant `PhI` (DrawFacts.v), a reference always belongs to an element that has not been processed, kept by copying, resolving and processing; all elements are processed when the resolver succeeds. | proved | `C61_picture` (PropsDraw.v); `C61_texts_distinct` (PropsDraw.v); `C61_readable` (PropsDraw.v); `C61_finished` (PropsDraw.v); `C61_no_name_refuted` (PropsDraw.v) |
| C62 | The parser reports exactly what it repairs or ignores | SpecWarn.v: tables of the children and attributes read for each kind of element, the relation `ReadIn` (which elements are read), and what can be peculiar about one. PropsWarn.v: one lemma per parse function (`Wn`: the warnings given are those due), composed along `bind`; induction over the tree for nested clusters. | proved | `C62_warns_exactly` (PropsWarn.v); `C62_never_spurious` (PropsWarn.v); `C62_silent` (PropsWarn.v) |
| C63 | Back pointers of the parsed model | LinkModel.v: a store of objects with their references and `parent`; the constructor calls and assignments to `parent` of parse.py and process_parse_model_convert.py in program order. SpecLink.v: the tree a value stands for and what it means that an object of the store stands for it. LinkFacts.v: every constructor fills an interval of the store; adoption changes the parents of the parts only. Refuted for write constraints of converted models | partial | `C63_parsed` (PropsLink.v); `C63_parents` (PropsLink.v); `C63_one_owner` (PropsLink.v); `C63_converted` (PropsLink.v); `C63_converted_parents` (PropsLink.v); `C63_constraint_refuted` (PropsLink.v) |
| C64 | How elements are joined while derivedFrom is resolved | SpecEdges.v: the table of what contains what, elements, references, and the graphs reached by resolving references and processing elements in any order. EdgeFacts.v: induction over those steps (copies of a subtree keep the levels, because everything below an element lies below its level); every reference keeps its two edges; DepFacts.v: a peripheral has at most one edge from a base or a reference, none once processed | proved | `C64_joined` (PropsEdges.v); `C64_resolver_graphs` (PropsEdges.v) |

## Trusted base

* Coq's kernel (8.16.1).  `Print Assumptions` reports "Closed under the global context" for every theorem named in MANIFEST.json (the commands
  are at the ends of the `Props*.v` files).  No axioms are used or declared; vcheck lists `Coq.ssr.ssrunder.Under_rel.*` because the standard
  library's ssreflect file, loaded by a tactic library, declares these module-type fields; no theorem depends on them.
* The faithfulness of the reading of the Python code (nothing was run).
* Python and library semantics transcribed by hand: `int()`, `str()`, `re.match` for the six patterns used, `str.split/strip/replace/lower`,
  stability of `list.sort`, `itertools.product`, dict order; rustworkx' `PyDiGraph` as described at the head of ResolveModel.v (reuse of freed
  indices, order of edges and successors, refused cycles, lexicographical topological sort); lxml's tree access, and for C27
  what `tostring` followed by parsing does to a tree (`Reread` in SerializeModel.v: empty text becomes absent text, everything else is kept).
* For C57/C58: the transcription of `schema/1.3.11.xsd` in SpecSchema.v and the definition of validity there (W3C XML Schema as far as that file
  uses it; simplifications at the head of the file), and `FromFile` in SchemaKept.v (libxml2 gives an element without text no text, not an empty one).
* Where Python iterates a `set` of node indices while copying a subtree, the model follows CPython's hash table for small integers
  (`set_order` in ResolveModel.v, compared with lists obtained from Python's own `set` on random inputs); the lemmas about copying hold for
  any order of the same nodes.
* Object sharing: the instances of an array have the same child nodes, and an array inside of an array puts the same processed objects
  below each instance of the outer one; the finalisation and the inheritance of properties write into these objects, where the model works with
  values.  The writes (sorted children, sizes, effective properties) depend only on the object and on the properties of its parent, which are
  equal for the instances of one array, so a second write finds what it would write.  Subtrees copied for derived elements hold copies
  (`copy.copy`) whose lists are replaced, never changed in place.

## Not modelled

* HTML logging: the logger, the page (LogModel.v) and the input of Graphviz (DrawModel.v) are modelled; Graphviz, `_modify_svg` (lxml), gzip/base64 and the two
  page templates are parameters, the first two may raise.  When the garbage collector destroys the logger is not modelled (`destroy` is that event).
* lxml's XMLSchema (compilation, verdicts) and the file system are parameters of ValidateModel; of packaging.version only releases N(.N)* are modelled.
* File system access, `__repr__`, object identity and the `parent` back pointers outside LinkModel.v (the other models keep values, not references), the `parsed` back pointers of processed objects.
* Strings are byte strings (Coq `string`, UTF-8); `lower()/upper()/isdigit()/strip()` and `\d`, `\s` are modelled for ASCII.
* CPython's 4300 digit limit for int<->str conversion, memory limits, the recursion limit.
* Warnings are a list; Python's warning filters (once per location) are not modelled.

## Tests of the theorems

`seeded/mutants.py` lists edits of the model that mimic realistic bugs; `seeded/run.py` applies each in a scratch copy, rebuilds and records which
files and theorems fail; `seeded/LOG.jsonl` is the log (one line per attempt, with the theorems tightened in response).
