{"id": "C01", "title": "Don't-care enumerated values expand to exactly the matching integers", "statement": "When an enumeratedValue's value is a binary literal with don't-care bits (0b10xx / #1x0), Process yields one enumerated value for every integer whose binary digits match the literal at every non-x position, no other integer, each exactly once and in ascending order.", "quantifier": "every binary literal over 0/1/x of any length and any number of x digits", "why_tests_cant": "the number of literals and of x-combinations is unbounded; a test fixes one literal", "anchors": ["src/svdsuite/process.py:_ProcessEnumeratedValueContainer._process_binary_value_with_wildcard", "src/svdsuite/process.py:_replace_x_combinations"]}
{"id": "C02", "title": "Enumerated values of a processed container are distinct, ascending and in range", "statement": "In every EnumeratedValueContainer of a processed device the integer values are pairwise different, strictly ascending and lie in 0 .. 2^bit_width-1 of the field.", "quantifier": "every list of parsed enumerated values, every field position", "why_tests_cant": "interaction of wildcards, duplicates, defaults and out-of-range values is combinatorial", "anchors": ["src/svdsuite/process.py:_process_enumerated_values", "src/svdsuite/process.py:_EnumeratedValueValidator", "src/svdsuite/process.py:_validate_and_finalize_enum_values"]}
{"id": "C03", "title": "A default enumerated value completes the container", "statement": "If a container has an isDefault entry, then after processing every value 0 .. 2^bit_width-1 of the field occurs exactly once; the values that were explicitly named keep their names, every other value is named <default>_<value> with the default's description, and no default marker remains.", "quantifier": "every list of parsed enumerated values containing a default, every field width", "why_tests_cant": "coverage is a statement about all 2^w values for all w and all subsets of explicitly named values", "anchors": ["src/svdsuite/process.py:_extend_enumerated_values_with_default"]}
{"id": "C04", "title": "Enumerated value names inside one container are unique", "statement": "Process ignores an enumerated value whose name was already used in the same container, so names in a processed container are pairwise different.", "quantifier": "every list of parsed enumerated values", "why_tests_cant": "uniqueness over all name combinations, including generated names", "anchors": ["src/svdsuite/process.py:_EnumeratedValueValidator.is_value_valid", "src/svdsuite/process.py:_extend_enumerated_values_with_default"]}
{"id": "C05", "title": "dim expansion creates exactly dim instances at base + i*dimIncrement", "statement": "An element with dim=n expands to exactly n instances; instance i is placed at the element's own address (or bit position) plus i*dimIncrement, and carries the name with every placeholder replaced by the i-th index.", "quantifier": "every dim >= 1, dimIncrement, address, name with placeholder, dimIndex, and base element", "why_tests_cant": "n and the address arithmetic are unbounded", "anchors": ["src/svdsuite/process.py:_ProcessDimension.process_dim", "src/svdsuite/process.py:Process._process_register", "src/svdsuite/process.py:Process._process_cluster", "src/svdsuite/process.py:Process._process_peripheral", "src/svdsuite/process.py:Process._process_field_msb_lsb_with_increment"]}
{"id": "C06", "title": "dim expansion never produces the same name twice for different indices", "statement": "Substituting two different indices into the same dim name yields two different names; hence an array expansion has pairwise different names, and a list expansion has duplicates only if dimIndex itself lists an index twice.", "quantifier": "every name with at least one placeholder, every pair of index strings of any length", "why_tests_cant": "injectivity of textual substitution over all strings cannot be sampled", "anchors": ["src/svdsuite/process.py:_ProcessDimension._process_dim_array", "src/svdsuite/process.py:_ProcessDimension._process_dim_list"]}
{"id": "C07", "title": "dimIndex notation means what the standard says", "statement": "A numeric range a-b denotes the decimal numbers a..b, a letter range X-Y the letters X..Y, a comma list its items without white space, no dimIndex 0..dim-1; in every case a list of a length different from dim, a descending range or dim<1 raises instead of expanding.", "quantifier": "every dimIndex string of these forms and every dim", "why_tests_cant": "ranges and lists are unbounded", "anchors": ["src/svdsuite/process.py:_ProcessDimension._process_dim_index"]}
{"id": "C08", "title": "Malformed dim descriptions are reported as ProcessException", "statement": "Every ill-formed dim description (placeholder without dim, array in a field, list in a peripheral, unusable dimIndex) makes Process raise ProcessException.", "quantifier": "every element name, dim and dimIndex string", "why_tests_cant": "the set of malformed strings is infinite", "anchors": ["src/svdsuite/process.py:_extract_and_process_dimension", "src/svdsuite/process.py:_ProcessDimension._process_dim_index"]}
{"id": "C09", "title": "The three bit-position notations are equivalent", "statement": "bitOffset/bitWidth, lsb/msb and bitRange describing the same bits give the same field; bitRange wins over lsb/msb which wins over bitOffset/bitWidth; a field without any usable notation is rejected.", "quantifier": "every combination of the five optional attributes, with or without a base field", "why_tests_cant": "the attribute values are unbounded integers and the presence combinations interact with inheritance", "anchors": ["src/svdsuite/process.py:_process_field_msb_lsb"]}
{"id": "C10", "title": "derivedFrom copies exactly the unspecified properties", "statement": "For a derived peripheral/cluster/register/field each inheritable property has the element's own value when specified and otherwise the base's; address/base address, name, interrupts and (peripherals) headerStructName are never taken from the base.", "quantifier": "every element and every base element, all subsets of specified properties", "why_tests_cant": "2^n presence patterns with arbitrary values", "anchors": ["src/svdsuite/process.py:Process._process_peripheral", "src/svdsuite/process.py:Process._process_cluster", "src/svdsuite/process.py:Process._process_register", "src/svdsuite/process.py:Process._process_field"]}
{"id": "C11", "title": "Register properties come from the nearest level that specifies them", "statement": "In a processed device access, protection, resetValue and resetMask of every register/cluster equal the value specified on the element itself or else on the nearest enclosing level, ending with the device (whose defaults are read-write, any, 0, 0xFFFFFFFF); a field's access comes from the field or else its register.", "quantifier": "every device tree of any depth and every presence pattern", "why_tests_cant": "unbounded nesting of clusters", "anchors": ["src/svdsuite/process.py:_InheritProperties", "src/svdsuite/process.py:Process._process_device"]}
{"id": "C12", "title": "Effective size follows the documented adjustment algorithm", "statement": "A cluster/peripheral's size is the maximum of its children's effective sizes, where a child without a size takes the nearest enclosing specified size, and ultimately the device's size.", "quantifier": "every device tree", "why_tests_cant": "recursive maximum over unbounded trees", "anchors": ["src/svdsuite/resolve/resolver.py:Resolver._calculate_size", "src/svdsuite/resolve/resolver.py:Resolver._get_parent_size_recursively"]}
{"id": "C13", "title": "Absolute addresses are the sum of the offsets on the path", "statement": "Every register and cluster of a processed device has base_address = peripheral base address + the address offsets of all enclosing clusters + its own offset.", "quantifier": "every device tree of any nesting depth", "why_tests_cant": "unbounded nesting", "anchors": ["src/svdsuite/process.py:_ValidateAndFinalize._validate_and_finalize_register_cluster"]}
{"id": "C14", "title": "The processed device is sorted", "statement": "Peripherals are ordered by (base address, name), registers/clusters by (base address, alternate group, name), fields by lsb, address blocks by offset, interrupts by value, enumerated values by value.", "quantifier": "every accepted device", "why_tests_cant": "sortedness for all inputs", "anchors": ["src/svdsuite/process.py:_ValidateAndFinalize"]}
{"id": "C15", "title": "Names are unique where users look elements up by name", "statement": "In an accepted device peripheral names are unique, field names within a register are unique, and register/cluster names within one parent are unique (registers of an alternate group are compared under name_group); otherwise ProcessException is raised.", "quantifier": "every device", "why_tests_cant": "all name combinations", "anchors": ["src/svdsuite/process.py:_validate_and_finalize_peripherals", "src/svdsuite/process.py:_validate_and_finalize_registers_clusters", "src/svdsuite/process.py:_validate_and_finalize_fields"]}
{"id": "C16", "title": "Fields that can be read (written) together never overlap", "statement": "A register is accepted exactly if no two of its fields that are both readable, or both writable, share a bit; the read-only/write-only pair may share bits. An accepted register contains exactly the non-reserved fields.", "quantifier": "every list of fields with any access, lsb and msb", "why_tests_cant": "pairwise statement over unbounded lists", "anchors": ["src/svdsuite/process.py:_validate_and_finalize_fields"]}
{"id": "C17", "title": "Overlapping registers/clusters are always reported", "statement": "For every two registers/clusters of one parent (without alternate group) whose address ranges intersect, a warning naming both is issued unless the alternate declarations permit the overlap, and no overlap warning is issued for disjoint ranges.", "quantifier": "every list of registers/clusters", "why_tests_cant": "pairwise intersection over unbounded lists, correctness of the sweep depends on the sort order", "anchors": ["src/svdsuite/process.py:_check_registers_clusters_address_overlaps"]}
{"id": "C18", "title": "Overlapping peripherals are always reported", "statement": "For every two peripherals whose effective (or specified) address ranges intersect, a warning naming both is issued unless alternatePeripheral declarations permit it, and none for disjoint ranges.", "quantifier": "every device", "why_tests_cant": "pairwise intersection over unbounded lists", "anchors": ["src/svdsuite/process.py:_check_peripheral_address_overlaps"]}
{"id": "C19", "title": "The set of permitted alternates is the connected alternate family", "statement": "The search for permitted alternates terminates for every (even cyclic) alternate declaration and returns exactly the elements reachable from the declared alternate by following alternate declarations in either direction.", "quantifier": "every finite alternate relation, including cycles and dangling names", "why_tests_cant": "termination and reachability on arbitrary graphs", "anchors": ["src/svdsuite/process.py:_compute_allowed_alternate_peripheral_names", "src/svdsuite/process.py:_compute_allowed_alternate_register_names", "src/svdsuite/process.py:_compute_allowed_alternate_cluster_names"]}
{"id": "C20", "title": "Elements disappear only for announced reasons", "statement": "Every register/cluster/peripheral/field of the resolved device reaches the processed device unless it is named 'reserved' (registers, fields), has a size that is not a multiple of 8, or is empty; each omission issues a warning.", "quantifier": "every device tree", "why_tests_cant": "conservation over unbounded trees", "anchors": ["src/svdsuite/process.py:_ValidateAndFinalize"]}
{"id": "C21", "title": "peripheral.registers is the flattened register tree", "statement": "peripheral.registers contains every register of the peripheral, including those in nested clusters, each exactly as often as in the tree, ordered by (base address, name).", "quantifier": "every peripheral tree", "why_tests_cant": "unbounded nesting", "anchors": ["src/svdsuite/process.py:_extract_registers"]}
{"id": "C22", "title": "Computed extents enclose all children tightly", "statement": "A cluster's end_address (a peripheral's end_address_effective) is the largest last byte of its children: no child extends beyond it and some child reaches it; cluster_size / peripheral_size_effective is end - base + 1.", "quantifier": "every device tree", "why_tests_cant": "maximum over unbounded trees", "anchors": ["src/svdsuite/process.py:_validate_and_finalize_register_cluster", "src/svdsuite/process.py:_validate_and_finalize_peripheral"]}
{"id": "C23", "title": "The memory map shows every register at its absolute address", "statement": "PeripheralRegisterMap lists for every peripheral exactly the registers of the processed device, each with address equal to its base_address, peripherals ordered by address.", "quantifier": "every processed device", "why_tests_cant": "unbounded nesting", "anchors": ["src/svdsuite/map.py:PeripheralRegisterMap._build_map"]}
{"id": "C24", "title": "allocated_range spans all address blocks", "statement": "MapPeripheral.allocated_range starts at the first byte of the lowest address block and ends at the last byte occupied by any address block.", "quantifier": "every list of address blocks", "why_tests_cant": "all layouts including nested blocks", "anchors": ["src/svdsuite/map.py:PeripheralRegisterMap._get_allocated_range"]}
{"id": "C25", "title": "Integers survive writing and reading", "statement": "Every integer written by the serializer, in decimal or 0x-hexadecimal form, is read back by the parser as the same integer; #-prefixed binary is read as binary; text that is not a number is rejected.", "quantifier": "every integer of either sign and any magnitude", "why_tests_cant": "infinitely many integers", "anchors": ["src/svdsuite/parse.py:_to_int", "src/svdsuite/serialize.py"]}
{"id": "C26", "title": "Booleans and enumerated attribute types survive writing and reading", "statement": "Every boolean and every member of every attribute enumeration (access, protection, cpu name, endian, ...) is read back as itself from the text the serializer writes; unknown texts are rejected (an unknown access type is dropped with a warning); access types, cpu names and booleans are accepted case-insensitively.", "quantifier": "every member of each enumeration and every text", "why_tests_cant": "every text", "anchors": ["src/svdsuite/model/types.py", "src/svdsuite/parse.py:_to_bool"]}
{"id": "C27", "title": "Serializing a device and parsing it again yields the same device", "statement": "Parser(Serializer(device)) returns a device equal to the given one.", "quantifier": "every SVDDevice", "why_tests_cant": "the device space is infinite (nesting, optional attributes)", "anchors": ["src/svdsuite/serialize.py:SVDDeviceSerializer", "src/svdsuite/parse.py:Parser._parse_device"]}
{"id": "C28", "title": "Parser element selection rules", "statement": "For a repeated simple child element the last occurrence is used, all <registers>/<fields> sections are concatenated in document order, and surrounding white space of non-description text is removed; every other element and attribute is read from exactly the place the format prescribes. The device is read if and only if everything mandatory is there; if all texts present are of the right kind, failing means ParserException.", "quantifier": "every XML element tree", "why_tests_cant": "arbitrary documents", "anchors": ["src/svdsuite/parse.py:Parser._parse_element_text", "src/svdsuite/parse.py:Parser._parse_fields"]}
{"id": "C29", "title": "XML decoding fallback order", "statement": "The file is parsed strictly first; fallback encodings are tried in the documented order, strict before recovering; the first success is returned, and if all attempts fail the original error is raised.", "quantifier": "every possible behaviour of the XML library on the input", "why_tests_cant": "arbitrary inputs / library outcomes", "anchors": ["src/svdsuite/util/xml_parse.py:safe_parse", "src/svdsuite/util/xml_parse.py:safe_fromstring"]}
{"id": "C30", "title": "Converting a processed device back keeps all information", "statement": "convert_processed_device_to_svd_device yields a description with the same peripherals, clusters, registers, fields, enumerated values and properties as the processed device.", "quantifier": "every processed device", "why_tests_cant": "unbounded trees", "anchors": ["src/svdsuite/util/process_parse_model_convert.py"]}
{"id": "C31", "title": "Processing is idempotent", "statement": "Processing the converted processed device again succeeds and yields an equal processed device.", "quantifier": "every processed device", "why_tests_cant": "composition of the whole pipeline over all devices", "anchors": ["src/svdsuite/process.py", "src/svdsuite/util/process_parse_model_convert.py", "src/svdsuite/resolve/resolver.py"]}
{"id": "C32", "title": "No unresolved derivedFrom is ever ignored", "statement": "If processing succeeds, every element with derivedFrom (and every copy of it) was merged with its base; if some derivedFrom path cannot be resolved, an exception is raised.", "quantifier": "every device", "why_tests_cant": "all reference structures", "anchors": ["src/svdsuite/resolve/resolver.py:Resolver.resolve_peripherals"]}
{"id": "C33", "title": "Circular derivedFrom is never accepted", "statement": "If elements derive from each other in a cycle of any length, processing raises; it neither succeeds nor loops.", "quantifier": "every cyclic derivedFrom structure, any cycle length", "why_tests_cant": "cycles of any length through any level", "anchors": ["src/svdsuite/resolve/graph.py:ResolverGraph.add_edge", "src/svdsuite/resolve/resolver.py:Resolver._resolve_placeholder"]}
{"id": "C34", "title": "The resolver's dependency graph stays acyclic and well formed", "statement": "At every point of the resolution the dependency graph has no cycle and every edge connects existing nodes, so that the topological order and the bottom-up pass visit every node.", "quantifier": "every device, every step of the algorithm", "why_tests_cant": "all histories of graph operations", "anchors": ["src/svdsuite/resolve/graph.py:ResolverGraph"]}
{"id": "C35", "title": "Bases are processed before the elements derived from them", "statement": "An element is only merged with a base that has itself been completely processed, whatever the document order (forward references work like backward references).", "quantifier": "every device and reference structure", "why_tests_cant": "all orders", "anchors": ["src/svdsuite/resolve/resolver.py", "src/svdsuite/resolve/graph.py:get_topological_sorted_nodes"]}
{"id": "C36", "title": "derivedFrom path lookup", "statement": "A derivedFrom path is looked up first among the element's siblings and then from the peripherals; only elements of the same level match, never the element itself; an ambiguous path raises (unless exactly one of the first two candidates found is a processed register outside any alternate group, which is then chosen).", "quantifier": "every graph state and path", "why_tests_cant": "all paths and trees", "anchors": ["src/svdsuite/resolve/resolver.py:Resolver._derived_from_path_resolving"]}
{"id": "C37", "title": "A derived element receives a copy of its base's children", "statement": "After merging, the derived element's children are its own children plus one copy of each child of the base, with the same attributes, recursively; the base itself is unchanged.", "quantifier": "every base subtree", "why_tests_cant": "unbounded subtrees", "anchors": ["src/svdsuite/resolve/graph.py:ResolverGraph.replicate_descendants"]}
{"id": "C38", "title": "Without derivedFrom, resolution is plain tree expansion", "statement": "For a device without derivedFrom the resolved device equals the recursive expansion of every element's dim, children sorted by (offset, name).", "quantifier": "every device without derivedFrom", "why_tests_cant": "refinement of a graph algorithm for all trees", "anchors": ["src/svdsuite/resolve/resolver.py:Resolver.resolve_peripherals"]}
{"id": "C39", "title": "CPU description is completed with the documented defaults", "statement": "Absent optional CPU features are false (vtorPresent true), absent SAU settings are enabled/secure, CM0+ is normalised to CM0PLUS; all given values are kept.", "quantifier": "every cpu description", "why_tests_cant": "all presence patterns", "anchors": ["src/svdsuite/process.py:Process._process_cpu"]}
{"id": "C40", "title": "At most one read and one write enumeration per field", "statement": "In an accepted device a field has at most two enumerated value containers, with different usages, and if it has two they are one read and one write container; a container without a stated usage is read-write.", "quantifier": "every field with any list of containers", "why_tests_cant": "all lists", "anchors": ["src/svdsuite/resolve/resolver.py:Resolver._finalize_field_node"]}
{"id": "C41", "title": "Register and cluster sizes are machine sizes", "statement": "Every register/cluster of an accepted device has size 8, 16, 32, 64 or 128 bits; a misaligned address offset is reported by a warning; other multiples of 8 raise.", "quantifier": "every device", "why_tests_cant": "all sizes", "anchors": ["src/svdsuite/process.py:_get_alignment", "src/svdsuite/process.py:_to_byte"]}
{"id": "C42", "title": "Processing terminates", "statement": "Process finishes (with a device or an exception) for every device.", "quantifier": "every device", "why_tests_cant": "termination", "anchors": ["src/svdsuite/resolve/resolver.py:Resolver.resolve_peripherals", "src/svdsuite/process.py:_compute_allowed_alternate_peripheral_names"]}
{"id": "C43", "title": "Semantic errors surface as ProcessException", "statement": "If Process rejects a device description it raises ProcessException (not a raw Python error).", "quantifier": "every device", "why_tests_cant": "all error paths", "anchors": ["src/svdsuite/process.py:Process._process_device"]}
{"id": "C44", "title": "Defects of single elements are diagnosed exactly", "statement": "Processing warns about every peripheral whose base address is no multiple of 4, every address block that starts before the end of its predecessor, every register or cluster whose offset is not aligned to min(size in bytes, 4), and every field whose most significant bit lies outside its register; and (dropped elements apart) it issues these warnings for nothing else.", "quantifier": "every accepted device", "why_tests_cant": "every element at any depth of every device", "anchors": ["src/svdsuite/process.py:_ValidateAndFinalize._validate_and_finalize_register_cluster", "src/svdsuite/process.py:_ValidateAndFinalize._validate_and_finalize_fields", "src/svdsuite/process.py:_ValidateAndFinalize._validate_address_blocks"]}
{"id": "C45", "title": "An accepted device is structurally complete", "statement": "In an accepted device every peripheral has address blocks and registers, every cluster has children, no register names both an alternate register and an alternate group, and nothing is named reserved; descriptions violating the address-block or alternate rule are rejected with ProcessException.", "quantifier": "every device", "why_tests_cant": "every element at any depth", "anchors": ["src/svdsuite/process.py:_ValidateAndFinalize._validate_and_finalize_peripheral", "src/svdsuite/process.py:_ValidateAndFinalize._validate_and_finalize_register_cluster"]}
{"id": "C46", "title": "A processed device is exactly the expansion of its description", "statement": "If Process accepts a description in which no derived cluster lies inside of an element that another element is derived from (inside of a base peripheral it may, if derived peripherals state names of peripherals), its peripherals are exactly the element-by-element expansion: every element stands for one element, or for one per dim index, with the attributes it states or takes from its base - which, if it is given by a plain name, is one of its own siblings, counting inherited ones -, and with its own children plus those of its base below each instance; every declared element has at least one instance, every resulting element is an instance of a declared one.", "quantifier": "every accepted device description without derived clusters inside of base clusters, any nesting depth, any dim, any mix of derivedFrom on peripherals, clusters, registers, fields and enumerated value containers", "why_tests_cant": "all shapes of the dependency graph and all orders in which the resolver works", "anchors": ["src/svdsuite/resolve/resolver.py:Resolver.resolve_peripherals", "src/svdsuite/resolve/graph.py", "src/svdsuite/process.py:Process._process_device"]}
{"id": "C47", "title": "Derived clusters are expanded like other elements", "statement": "A cluster with derivedFrom stands, like any other derived element, for an element (or one per dim index) with its own children plus those of its base, wherever it is written, also when its base contains derived clusters itself.", "quantifier": "every accepted device description with derived clusters", "why_tests_cant": "all shapes of nested derivation", "anchors": ["src/svdsuite/resolve/resolver.py:Resolver._update_node", "src/svdsuite/resolve/graph.py:ResolverGraph.replicate_descendants"]}
{"id": "C48", "title": "The validator answers for the chosen schema version", "statement": "Validator.validate_xml_* returns True exactly if the document can be read and is valid under the packaged schema of the requested version; with get_exception an invalid document raises the schema's error and never returns False, without it an invalid document returns False and never raises for being invalid; a missing schema file raises ValidatorException; no version given means the newest one of the enumeration by version number (1.3.11, not 1.3.9); different versions use different files.", "quantifier": "every document, schema, file system content, flag and version; every enumeration of versions for the choice of the newest", "why_tests_cant": "all combinations of reading, schema and validity outcomes of the XML library, and all version lists", "anchors": ["src/svdsuite/validate.py:Validator._validate", "src/svdsuite/validate.py:SVDSchemaVersion.get_latest"]}
{"id": "C49", "title": "Descriptions that keep the element rules are accepted by the resolver", "statement": "A description without derivedFrom, with at least one peripheral, in which every element keeps the local rules (placeholder, dim and dimIndex fit together; stated sizes are not negative; each field has a readable bit position, at most one enumeratedValues container or one for reading and one for writing, readable values and at most one default entry) is always resolved and expanded, and then accepted exactly if the expanded tree keeps the validation rules (C50): no nesting, number of elements or combination of dims makes Process fail or run forever.", "quantifier": "every description without derivedFrom that keeps the rules, of any size and nesting", "why_tests_cant": "acceptance has to be shown for all nestings of arrays, lists and containers, a test accepts single files", "anchors": ["src/svdsuite/process.py:Process._process_device", "src/svdsuite/resolve/resolver.py:Resolver", "src/svdsuite/process.py:_ProcessDimension", "src/svdsuite/process.py:_ProcessEnumeratedValueContainer"]}
{"id": "C50", "title": "Validation accepts exactly the devices that keep its rules", "statement": "An expanded device passes validation if and only if, after leaving out elements with a size that is no number of bytes, reserved registers and fields, and empty clusters and peripherals: sizes are 8, 16, 32, 64 or 128 bits, sibling names (with alternateGroup) and peripheral names are unique, no register has both alternateRegister and alternateGroup, no two fields with a common access share a bit, enumerated values have values, alternateCluster and alternatePeripheral name existing siblings, and every peripheral has an address block. Everything else is rejected with an exception.", "quantifier": "every expanded device", "why_tests_cant": "both directions of an equivalence over all device trees", "anchors": ["src/svdsuite/process.py:_ValidateAndFinalize", "src/svdsuite/process.py:_InheritProperties"]}
{"id": "C51", "title": "What processing a processed device again yields", "statement": "Converting a processed device back into a description and processing that is accepted if and only if at least one peripheral is left and no name carries a leftover placeholder; the outcome is the same device, except that later enumerated values with an already used name are left out and that the size of every cluster and peripheral is the largest size among the elements left in it; a further round changes nothing.", "quantifier": "every accepted device description, with or without derivedFrom", "why_tests_cant": "an equivalence over all device trees; a test compares single files", "anchors": ["src/svdsuite/process.py:Process.convert_processed_device_to_svd_device", "src/svdsuite/process.py:Process._process_device", "src/svdsuite/process.py:_ValidateAndFinalize"]}
{"id": "C52", "title": "Descriptions in which only peripherals are derived are accepted by the resolver", "statement": "A description in which only peripherals carry derivedFrom, each naming (with a plain name that exactly one peripheral has) a peripheral that is itself not derived or derived in the same way, and whose elements otherwise keep the local rules (C49; an array of peripherals states its dim or takes it over from its base), is always resolved and expanded, in whatever order bases and derived peripherals are declared and however long the chains are, and then accepted exactly if the expanded tree keeps the validation rules (C50).", "quantifier": "every description whose only derived elements are such peripherals, of any size, nesting, order and chain length", "why_tests_cant": "acceptance has to be shown for all derivation chains, orders and nestings; a test accepts single files", "anchors": ["src/svdsuite/process.py:Process._process_device", "src/svdsuite/resolve/resolver.py:Resolver", "src/svdsuite/resolve/graph.py:ResolverGraph"]}
{"id": "C53", "title": "The order in which siblings are written does not matter", "statement": "Writing the peripherals of a description, the registers and clusters of a peripheral or cluster, the fields of a register or the enumeratedValues containers of a field in another order does not change the outcome: both descriptions are rejected, or both yield the same device (all attributes equal, elements in the same order).", "quantifier": "every description and every reordering of siblings at every level", "why_tests_cant": "all permutations at all levels of all descriptions; a test compares a few", "anchors": ["src/svdsuite/process.py:Process._process_device", "src/svdsuite/resolve/resolver.py:Resolver", "src/svdsuite/process.py:_ValidateAndFinalize"]}
{"id": "C54", "title": "Loading a file, processing it, exporting the result and loading the export gives the device back", "statement": "Take a file without blank texts (and without empty parts in a dimIndex) that is parsed and accepted with at least one peripheral left. Converting the processed device, writing it as XML (plain or pretty printed) and parsing that file succeeds; the description read states every attribute of the device, and processing it succeeds iff no name still carries a placeholder; it then yields the device itself up to enumerated values that share a name and the sizes of clusters and peripherals, and exactly the device when these are settled.", "quantifier": "every XML document, every device it is processed to, every way of laying out the exported file", "why_tests_cant": "a statement about the whole tool chain for all files; a test follows single files through it", "anchors": ["src/svdsuite/parse.py:Parser", "src/svdsuite/process.py:Process", "src/svdsuite/util/process_parse_model_convert.py:process_parse_convert_device", "src/svdsuite/serialize.py:Serializer"]}
{"id": "C55", "title": "Display names of the instances of a register array or list", "statement": "Instance i of a register array or list carries the display name with every placeholder replaced by the i-th index, the one its name carries; this is the register's own displayName or else the displayName it takes over from the register it is derived from; without either there is none.", "quantifier": "every register with dim, display name, dimIndex and base", "why_tests_cant": "the number of instances and the texts are unbounded", "anchors": ["src/svdsuite/process.py:_ProcessDimension.process_dim", "src/svdsuite/process.py:Process._process_register", "src/svdsuite/process.py:Process._extract_and_process_dimension", "src/svdsuite/resolve/resolver.py:Resolver._post_process_dim_elements"]}
{"id": "C56", "title": "Elements derived from those written beside them are accepted by the resolver, at every level", "statement": "A description in which any peripheral, cluster, register or field may be derived, stating the plain name that exactly one element of its kind among those beside it has (among the peripherals, or among the own and taken-over contents of the surrounding element; no instance of an array or list there has that name), directly or through others from an element that is not derived, is always resolved and expanded, in whatever order bases and derived elements are written and however long the chains are, provided that the elements keep the local rules (C49) with what they state or take over (dim, dimIndex, displayName, bit positions, enumerated values) and that nothing inside of an element that may be a base is derived; it is then accepted exactly if the expanded tree keeps the validation rules (C50).", "quantifier": "every description whose derived elements are such, of any size, nesting, order and chain length", "why_tests_cant": "acceptance has to be shown for all derivation chains, orders and nestings at all levels; a test accepts single files", "anchors": ["src/svdsuite/process.py:Process._process_device", "src/svdsuite/resolve/resolver.py:Resolver", "src/svdsuite/resolve/graph.py:ResolverGraph"]}
{"id": "C57", "title": "Schema-valid documents are read", "statement": "Every document that is valid against the packaged CMSIS-SVD schema (1.3.11.xsd) is read without an error, and the description is the one the document states (C28), provided that its numbers are written without scale factor and only with the digits of their base, its identifiers are not empty, and its keywords contain no more than single blanks. These restrictions are needed: valid documents with a scale factor (1k), with hexadecimal digits but no 0x, with an empty identifier or with two blanks in a data type are rejected.", "quantifier": "every XML document that is valid against the schema", "why_tests_cant": "the schema admits unboundedly many documents of any size and nesting; tests read single files", "anchors": ["src/svdsuite/parse.py:Parser", "src/svdsuite/types.py", "src/svdsuite/schema/1.3.11.xsd", "src/svdsuite/validate.py:Validator"]}
{"id": "C58", "title": "Valid documents are rewritten as valid documents and survive it", "statement": "Writing a description whose texts, numbers and combinations of elements the schema allows gives a document that is valid against the packaged schema: all required elements are there, and all elements are in the order, number and notation the schema asks for. In particular, reading a valid document (with the restrictions of C57, and with no blank strings, no empty cluster description, and bitWidth after bitOffset) and writing it again gives a valid document, which is read as the same description. The restrictions are needed. The documents exported from processed devices are in general not valid: only if a protection is given for the device and every address block, and no field has enumerated values.", "quantifier": "every description that conforms to the schema, every valid document, every processed device", "why_tests_cant": "validity of the output concerns all combinations of optional elements at every level; tests compare single outputs", "anchors": ["src/svdsuite/serialize.py:Serializer", "src/svdsuite/parse.py:Parser", "src/svdsuite/util/process_parse_model_convert.py:process_parse_convert_device", "src/svdsuite/schema/1.3.11.xsd"]}
{"id": "C59", "title": "The notations of the schema are understood by the processing", "statement": "Texts the schema only restricts to a notation are understood by the processing. An enumerated value of the schema's notation (decimal, 0x hexadecimal, # or 0b binary with don't-care bits) without a leading + stands for exactly the numbers it denotes, and a container of such values (without default and reserved entries) is processed; a value with a leading +, although valid, makes the processing fail with a ProcessException. Every bitRange of the schema, in any order of its two numbers and with blanks around it, gives a field with these limits, 0 <= lsb <= msb <= 69. Every dimIndex of the schema is either a descending range (one letter to itself included), which is rejected with a ProcessException, or denotes a list of names that is used if it has dim entries. So a valid file (with the restrictions of C58) that keeps the rules of C49 (or C52) for arrays, lists, defaults and usages, which the schema does not express, is read and expanded as it says, and accepted exactly if the expanded device is acceptable.", "quantifier": "every text of the schema's notations, every container, every field, every document valid against the schema", "why_tests_cant": "the notations have unboundedly many texts and the files unboundedly many shapes; tests use single texts and files", "anchors": ["src/svdsuite/process.py:_ProcessEnumeratedValueContainer", "src/svdsuite/process.py:Process", "src/svdsuite/process.py:_ProcessDimension", "src/svdsuite/parse.py:Parser", "src/svdsuite/schema/1.3.11.xsd"]}
{"id": "C60", "title": "The log of the resolver is faithful and has no influence", "statement": "Giving a log file name to Process changes neither the result, nor the warnings, nor the exception (as long as the graphs can be drawn); without one nothing is logged or written. Whatever the outcome, including a graph that cannot be drawn, exactly one text is written to the file: the page with everything logged so far; it is written when the logger is destroyed and never before (so not yet when Process returns). The log is a sequence of headings, paragraphs, listings and pictures in which pictures and rounds are numbered 1, 2, ... For an accepted description it shows the graph as constructed, the graph with the references linked, every round with the references resolved, the elements processed and the graphs in between; no element number is listed twice; every element of the description has exactly one line with its name and kind, and if nothing states derivedFrom there are no other lines. Names are inserted without escaping, so a name can hide the rest of the page.", "quantifier": "every description, accepted or rejected, every behaviour of the drawing (including failures), every page template and compression", "why_tests_cant": "the log depends on the whole course of the resolution, which is different for every description, and on failures at any point; tests look at single pages", "anchors": ["src/svdsuite/resolve/logger.py:ResolverLogger", "src/svdsuite/util/html_generator.py:HTMLGenerator", "src/svdsuite/resolve/resolver.py:Resolver", "src/svdsuite/process.py:Process"]}
{"id": "C61", "title": "The pictures in the log show the state of the resolution", "statement": "Every picture in the resolver's log has exactly one box for each node of the graph and one arrow for each edge. The box of an element shows its name, kind and number, blue if it has been processed, black if not; the box of a derivedFrom reference that has not been resolved shows its path, in red; arrows are black, blue, red or green according to the kind of edge. No two boxes have the same text (except boxes of the device), and graphs with the same pictures have the same nodes, names, kinds, states, open references and edges; only an element without a name cannot be told from one called 'no name'. The last picture in the log of an accepted description is blue: every element has been processed and no reference is left.", "quantifier": "every graph; every description that is accepted, with any renderer", "why_tests_cant": "the graphs are unbounded and different in every round of every description; a test compares single pictures", "anchors": ["src/svdsuite/resolve/graph.py:ResolverGraph.get_svg", "src/svdsuite/resolve/logger.py:ResolverLogger", "src/svdsuite/resolve/resolver.py:Resolver"]}
{"id": "C62", "title": "The parser reports exactly what it repairs or ignores", "statement": "When a document is read, a warning is given for every element read that is given more than once (only the last one counts), for every value or attribute read with white space around it that is removed, for every unknown access type (treated as absent), for an interrupt without a value (taken as 0), for a device without a description and for a missing schema location - and no other warning is given. Texts that are kept as they are (descriptions, disable conditions, the license) and parts of the document that are not read cause none. Even if the document is rejected in the end, the warnings given before are true of it; a plain document is read in silence.", "quantifier": "every XML document", "why_tests_cant": "what is peculiar can be anywhere in a document of any depth, in any combination; a test looks at single oddities in small documents", "anchors": ["src/svdsuite/parse.py:Parser", "src/svdsuite/model/types.py:AccessType.from_str"]}
{"id": "C63", "title": "Back pointers of the parsed model", "statement": "The model returned by the parser is a tree of separate objects, one for every element read; every object's parent is the object it is listed under, every object is listed under at most one object, the device has no parent, and models built before are left alone. The model converted from a processed device is such a tree of the elements of the device too. (REFUTED for write constraints of converted models: their parent is never set.)", "quantifier": "every parsed description, every processed device, every store of objects existing before", "why_tests_cant": "any of the assignments to parent can be missed or hit the wrong object in one of the many kinds of nested elements; a test follows a few pointers of small documents", "anchors": ["src/svdsuite/parse.py:Parser", "src/svdsuite/util/process_parse_model_convert.py:process_parse_convert_device"]}
{"id": "C64", "title": "How elements are joined while derivedFrom is resolved", "statement": "In every state of the resolution of a device, elements are nested only as a document can nest them (peripherals in the device, registers and clusters in peripherals and clusters, fields in registers, containers of enumerated values in fields), an element and its base are of the same kind, every unresolved derivedFrom reference belongs to exactly one waiting element and to exactly one element that element could be a child of, and a peripheral waits for at most one base, and for none once its value is known.", "quantifier": "every description, and every graph reached from it by resolving references and processing elements in any order", "why_tests_cant": "copies of subtrees with references inside and the instances of arrays add edges in every round; a test looks at the graph of a few small devices, mostly at the end", "anchors": ["src/svdsuite/resolve/graph.py:ResolverGraph", "src/svdsuite/resolve/resolver.py:Resolver"]}
