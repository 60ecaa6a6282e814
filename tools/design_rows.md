C01: `_convert_enumerated_value` incl. `itertools.product`; independent digit-wise matching relation (SpecEnum); membership iff, no duplicates, ascending; lifted to whole devices
C02: enum expansion, validator, default extension, finalization filter; invariant over the folds; lifted to devices through the image relation
C03: `_extend_default_enum` within the whole container processing; set equality with 0..2^w-1, origin of the names
C04: same; refuted by the default extension, which can generate a name already in use; proved for containers without default
C05: `_extract_and_process_dimension`, name and offset computation; relation Subst for "replace the placeholder"; functional specification per kind of element
C06: injectivity of substitution and of the index lists
C07: the three dimIndex notations as a grammar (SpecDim.Index); exactly the listed indices, descending ranges rejected
C08: decision of every malformed case; refuted for texts that make `int()`/indexing raise ValueError/TypeError
C09: `_process_field_msb_lsb_with_increment`; equational; the bitRange pattern as a grammar
C10: `_process_peripheral/_cluster/_register/_field` with a base; attribute by attribute
C11: `_InheritProperties` through finalization; path-indexed specification "nearest level that states it"
C12: SpecSize states the sizes as a recursive maximum over the description; proved by induction over the description from the expansion (C38) and the image of the validation (C11); the clause about the size of the device is refuted by a witness
C13: finalization: absolute address = base + sum of offsets, along the path of Below
C14: every list of the processed device sorted by the stated key; invariant of the resolver's output and of finalization
C15: no duplicate names per scope in any accepted device, incl. flattened registers
C16: field overlap check; accepted iff no readable/writable pair shares a bit
C17: both directions: every overlap of non-alternates is reported, every report is justified
C18: same for peripherals
C19: search for alternates; fuel suffices; the set found is the connected component (inductive closure)
C20: finalization: every element of the resolved device is in the result unless a warning names it
C21: `registers` of a peripheral = depth-first list of its register tree
C22: size/end address of clusters, registers, peripherals are the maxima over the children
C23: map.py: entries = all registers at their absolute addresses, sorted
C24: allocated_range; refuted for nested address blocks; proved for disjoint blocks
C25: `_to_int`, `int()`, `str()`, `hex()`; grammar of numerals with values (SpecText); refuted clause: '#' inside a number is dropped
C26: `_to_bool`, keyword enumerations; total tables and round trips
C27: parse.py after serialize.py over XML trees; relation kept_* says what is read back, for every device; refuted in general
C28: parse.py; declarative reading relation (SpecParse), both directions, determinism, error classes
C29: util/xml_parse.py over an arbitrary decoder; enumeration of the attempts in order
C30: converter; SpecConvert.Shows attribute by attribute; nothing lost (injective up to stated details)
C31: convert a processed device and process it again: invariants of every processed device (AgainFacts), its description expands plainly (C49) to elements with the same attributes (AgainExpand), which validation maps to the device again; exact characterisation of acceptance and outcome; refuted in general (four witnesses)
C32: resolver's main loop; derivation is applied for peripherals, registers, fields; refuted for enumerated value containers
C33: a set of elements each of which can only be derived from one of the set is rejected (no round can process any of them: invariant of the loop), also when the set is closed only among siblings that name each other by plain names; refuted for enumerated value containers
C34: record WF of the graph: acyclic, unique parents/levels, every edge between nodes; preserved by every operation; holds of all graphs the resolver goes through
C35: same theorem as C32: the base's value is one of the values the base stands for when it is processed
C36: `_search_*`; a path is followed downwards from the scopes; exactly one candidate or an exception
C37: `replicate_descendants`: an isomorphic copy of the subtree (Replicated), originals untouched
C38: resolver vs. plain recursive expansion (SpecExpand.PlainExpansion): refinement by the invariant of ExpandInv
C39: `_process_cpu`; functional
C40: containers of a field: usage read/write at most once each, read-write alone
C41: accepted sizes are 8, 16, 32, 64; others are rejected
C42: termination of the main loop: lexicographic measure (number of unfinished elements per level); other loops are structural
C43: refuted (KeyError, AttributeError, ResolveException leave Process); exact list of classes that can, and of the statements they come from: thirteen, each reached by a description (C43_exact, C43_classes_exact; EdgeFacts.v, DepFacts.v, ErrFacts.v, from the invariants of the graph: levels of joined elements, one parent and one element per reference, at most one base per peripheral, kinds and levels of the elements joined by edges, every declared element has a value, every round is sound); all others are ProcessException; KeyError only after the peripherals have been resolved, with the name of an alternate that a peripheral or a cluster of the resolved device gives (KeyFacts.v)
C44: alignment, field outside register, overlapping blocks: reported iff present
C45: accepted devices satisfy the structural rules; the stated defects are rejected
C46: (sizes: a child without size takes one from the first element around it in the graph, which may be another instance; the bottom-up pass visits nodes by increasing height, so the instances that are done already have the same children, hence the same size, unless a base contains derived registers or fields, see QuietBases; for those and arrays with children without size the size is left open) (derived clusters allowed outside of bases; inside of a base peripheral if derived peripherals state names of peripherals) resolver vs. SpecExpand.Expansion with derivedFrom: invariant of the graph through build, placeholder resolution, replication, dim expansion and the bottom-up pass; Elab carries the list of effective siblings (ExpandScope), among which the base of a plain name is found
C47: counterexample (a base that contains derived clusters); positive part: C46's theorem, with the count of derivation edges per derived element as additional invariant (ExpandLeft)
C48: validate.py over arbitrary XML library functions and file system; packaging's version order vs. component-wise order with missing components 0
C49: resolver on descriptions without derivedFrom: every step of build, dim, enum expansion and bottom-up pass shown to succeed under SpecAccept.ElementRules (BuildOk, AcceptFacts; special case of C52), termination from C42; with C46 the result is the plain expansion
C50: inheritance and validation against SpecAccept.Acceptable (Kept/Dropped/Sift by mutual induction over the tree), both directions (FinalAccept)
C51: see C31; the outcome is given by SpecAgain.again_dev and SpecAgain.Rereadable, stability by the idempotence of again_dev
C52: resolver on descriptions in which only peripherals are derived (SpecAccept.DerivedRules): building the graph (BuildOk), finding the base of a reference and topological order (LookupOk), each processing step, the copying of children and the rounds (AcceptFacts) shown to succeed; expansion from C46, validation from C50
C53: two descriptions related by SpecOrder.Shuffled; their expansions (C52, C46) are shown to agree up to the order of siblings (OrderFacts: what an element stands for is determined by its attributes and base; OrderPer: bases of peripherals and preservation of the rules; OrderDeep: the same for elements derived from siblings at every level, by induction on the chain of bases and on the finished values), and the finalisation to yield the same sorted device for both (OrderFinal); refuted by computation for a derived register written before its base
C54: SpecExport lists the texts of a description; C54_read_trimmed follows from the reading relation of C28; ExportFacts shows by an invariant of the resolver graph (ResolveInv.Closed) and induction over the validation that every text of a processed device is a text of the description or made from ones by substituting an index or appending a number, hence not empty and not padded; so C27 and C31 apply to the exported device
C55: substitution as in C05 (Subst), with a lemma that inserting decimal numbers never creates a new placeholder; the derived case is refuted by a computed witness
C56: resolver on descriptions with derived elements at every level (SpecAccept.SiblingRules): AcceptDeep generalises AcceptFacts: an invariant of the rounds (what is below something unprocessed is unprocessed, every unprocessed derived node waits for a reference or its base, references lead to exactly one sibling) shows that every reference is found once the parent is processed, that a round never gets stuck and that each processing step succeeds; PropsDeep derives the local conditions from the rules by induction on the derivation (what is taken over: dim, dimIndex, displayName, bits, contents); expansion from C46, validation from C50
C57: SpecSchema.v transcribes 1.3.11.xsd (simple types as regular expressions, complex types as particles) and defines validity, with a switch for two restricted schemas; SchemaFacts/SchemaText (derivatives of regular expressions, counting of children of a particle), SchemaRead (every valid element is read, by the relational reading of SpecParse, through the nesting of clusters), SchemaMono (the restricted schemas are restrictions); C28 turns the reading into a run of the parser.
C58: SpecConform.v states which descriptions the schema allows; SchemaWrite shows their documents valid, element by element, SchemaRead that what is read from a valid document conforms, SchemaKept that it survives (C27). Refutations for exports by counting the children of written elements.
C59: The languages of the schema (SpecSchema.v) are inverted into the notations of SpecEnum, SpecElem and SpecDim; values: `ValueOf` is an independent relation between a text and the numbers it denotes. Files: read_conform (C58) gives ElementRules/DerivedRules, then C49, C50, C52.
C60: LogModel.v threads the state of the logger through the model of the resolver (drawing, compression and templates are parameters; drawing may fail). Transparency: two relations (quiet, erasing) closed under the monads. Contents: every logging method writes items of SpecLog.v; `Run` relates the rounds to the steps of the resolver; elements: each process_node finishes one node and keeps all others, construction creates one node per element of the description.
C61: DrawModel.v: the attribute dictionaries handed to Graphviz. Legend in SpecDraw.v. Texts: the last blank and the last parenthesis of a label separate its parts. Last picture: invariant `PhI` (DrawFacts.v), a reference always belongs to an element that has not been processed, kept by copying, resolving and processing; all elements are processed when the resolver succeeds.
C62: SpecWarn.v: tables of the children and attributes read for each kind of element, the relation `ReadIn` (which elements are read), and what can be peculiar about one. PropsWarn.v: one lemma per parse function (`Wn`: the warnings given are those due), composed along `bind`; induction over the tree for nested clusters.
C63: LinkModel.v: a store of objects with their references and `parent`; the constructor calls and assignments to `parent` of parse.py and process_parse_model_convert.py in program order. SpecLink.v: the tree a value stands for and what it means that an object of the store stands for it. LinkFacts.v: every constructor fills an interval of the store; adoption changes the parents of the parts only. Refuted for write constraints of converted models
C64: SpecEdges.v: the table of what contains what, elements, references, and the graphs reached by resolving references and processing elements in any order. EdgeFacts.v: induction over those steps (copies of a subtree keep the levels, because everything below an element lies below its level); every reference keeps its two edges; DepFacts.v: a peripheral has at most one edge from a base or a reference, none once processed
