#!/usr/bin/env python3
"""Regenerates /verif/properties.jsonl (one JSON object per line)."""
import json, os
P=[]
def p(id,title,statement,quantifier,why,anchors):
    P.append(dict(id=id,title=title,statement=statement,quantifier=quantifier,why_tests_cant=why,anchors=anchors))
S="src/svdsuite/"
p("C01","Don't-care enumerated values expand to exactly the matching integers",
  "When an enumeratedValue's value is a binary literal with don't-care bits (0b10xx / #1x0), Process yields one enumerated value for every integer whose binary digits match the literal at every non-x position, no other integer, each exactly once and in ascending order.",
  "every binary literal over 0/1/x of any length and any number of x digits",
  "the number of literals and of x-combinations is unbounded; a test fixes one literal",
  [S+"process.py:_ProcessEnumeratedValueContainer._process_binary_value_with_wildcard",S+"process.py:_replace_x_combinations"])
p("C02","Enumerated values of a processed container are distinct, ascending and in range",
  "In every EnumeratedValueContainer of a processed device the integer values are pairwise different, strictly ascending and lie in 0 .. 2^bit_width-1 of the field.",
  "every list of parsed enumerated values, every field position",
  "interaction of wildcards, duplicates, defaults and out-of-range values is combinatorial",
  [S+"process.py:_process_enumerated_values",S+"process.py:_EnumeratedValueValidator",S+"process.py:_validate_and_finalize_enum_values"])
p("C03","A default enumerated value completes the container",
  "If a container has an isDefault entry, then after processing every value 0 .. 2^bit_width-1 of the field occurs exactly once; the values that were explicitly named keep their names, every other value is named <default>_<value> with the default's description, and no default marker remains.",
  "every list of parsed enumerated values containing a default, every field width",
  "coverage is a statement about all 2^w values for all w and all subsets of explicitly named values",
  [S+"process.py:_extend_enumerated_values_with_default"])
p("C04","Enumerated value names inside one container are unique",
  "Process ignores an enumerated value whose name was already used in the same container, so names in a processed container are pairwise different.",
  "every list of parsed enumerated values",
  "uniqueness over all name combinations, including generated names",
  [S+"process.py:_EnumeratedValueValidator.is_value_valid",S+"process.py:_extend_enumerated_values_with_default"])
p("C05","dim expansion creates exactly dim instances at base + i*dimIncrement",
  "An element with dim=n expands to exactly n instances; instance i is placed at the element's own address (or bit position) plus i*dimIncrement, and carries the name with every placeholder replaced by the i-th index.",
  "every dim >= 1, dimIncrement, address, name with placeholder, dimIndex, and base element",
  "n and the address arithmetic are unbounded",
  [S+"process.py:_ProcessDimension.process_dim",S+"process.py:Process._process_register",S+"process.py:Process._process_cluster",S+"process.py:Process._process_peripheral",S+"process.py:Process._process_field_msb_lsb_with_increment"])
p("C06","dim expansion never produces the same name twice for different indices",
  "Substituting two different indices into the same dim name yields two different names; hence an array expansion has pairwise different names, and a list expansion has duplicates only if dimIndex itself lists an index twice.",
  "every name with at least one placeholder, every pair of index strings of any length",
  "injectivity of textual substitution over all strings cannot be sampled",
  [S+"process.py:_ProcessDimension._process_dim_array",S+"process.py:_ProcessDimension._process_dim_list"])
p("C07","dimIndex notation means what the standard says",
  "A numeric range a-b denotes the decimal numbers a..b, a letter range X-Y the letters X..Y, a comma list its items without white space, no dimIndex 0..dim-1; in every case a list of a length different from dim, a descending range or dim<1 raises instead of expanding.",
  "every dimIndex string of these forms and every dim",
  "ranges and lists are unbounded",
  [S+"process.py:_ProcessDimension._process_dim_index"])
p("C08","Malformed dim descriptions are reported as ProcessException",
  "Every ill-formed dim description (placeholder without dim, array in a field, list in a peripheral, unusable dimIndex) makes Process raise ProcessException.",
  "every element name, dim and dimIndex string",
  "the set of malformed strings is infinite",
  [S+"process.py:_extract_and_process_dimension",S+"process.py:_ProcessDimension._process_dim_index"])
p("C09","The three bit-position notations are equivalent",
  "bitOffset/bitWidth, lsb/msb and bitRange describing the same bits give the same field; bitRange wins over lsb/msb which wins over bitOffset/bitWidth; a field without any usable notation is rejected.",
  "every combination of the five optional attributes, with or without a base field",
  "the attribute values are unbounded integers and the presence combinations interact with inheritance",
  [S+"process.py:_process_field_msb_lsb"])
p("C10","derivedFrom copies exactly the unspecified properties",
  "For a derived peripheral/cluster/register/field each inheritable property has the element's own value when specified and otherwise the base's; address/base address, name, interrupts and (peripherals) headerStructName are never taken from the base.",
  "every element and every base element, all subsets of specified properties",
  "2^n presence patterns with arbitrary values",
  [S+"process.py:Process._process_peripheral",S+"process.py:Process._process_cluster",S+"process.py:Process._process_register",S+"process.py:Process._process_field"])
p("C11","Register properties come from the nearest level that specifies them",
  "In a processed device access, protection, resetValue and resetMask of every register/cluster equal the value specified on the element itself or else on the nearest enclosing level, ending with the device (whose defaults are read-write, any, 0, 0xFFFFFFFF); a field's access comes from the field or else its register.",
  "every device tree of any depth and every presence pattern",
  "unbounded nesting of clusters",
  [S+"process.py:_InheritProperties",S+"process.py:Process._process_device"])
p("C12","Effective size follows the documented adjustment algorithm",
  "A cluster/peripheral's size is the maximum of its children's effective sizes, where a child without a size takes the nearest enclosing specified size, and ultimately the device's size.",
  "every device tree",
  "recursive maximum over unbounded trees",
  [S+"resolve/resolver.py:Resolver._calculate_size",S+"resolve/resolver.py:Resolver._get_parent_size_recursively"])
p("C13","Absolute addresses are the sum of the offsets on the path",
  "Every register and cluster of a processed device has base_address = peripheral base address + the address offsets of all enclosing clusters + its own offset.",
  "every device tree of any nesting depth",
  "unbounded nesting",
  [S+"process.py:_ValidateAndFinalize._validate_and_finalize_register_cluster"])
p("C14","The processed device is sorted",
  "Peripherals are ordered by (base address, name), registers/clusters by (base address, alternate group, name), fields by lsb, address blocks by offset, interrupts by value, enumerated values by value.",
  "every accepted device",
  "sortedness for all inputs",
  [S+"process.py:_ValidateAndFinalize"])
p("C15","Names are unique where users look elements up by name",
  "In an accepted device peripheral names are unique, field names within a register are unique, and register/cluster names within one parent are unique (registers of an alternate group are compared under name_group); otherwise ProcessException is raised.",
  "every device",
  "all name combinations",
  [S+"process.py:_validate_and_finalize_peripherals",S+"process.py:_validate_and_finalize_registers_clusters",S+"process.py:_validate_and_finalize_fields"])
p("C16","Fields that can be read (written) together never overlap",
  "A register is accepted exactly if no two of its fields that are both readable, or both writable, share a bit; the read-only/write-only pair may share bits. An accepted register contains exactly the non-reserved fields.",
  "every list of fields with any access, lsb and msb",
  "pairwise statement over unbounded lists",
  [S+"process.py:_validate_and_finalize_fields"])
p("C17","Overlapping registers/clusters are always reported",
  "For every two registers/clusters of one parent (without alternate group) whose address ranges intersect, a warning naming both is issued unless the alternate declarations permit the overlap, and no overlap warning is issued for disjoint ranges.",
  "every list of registers/clusters",
  "pairwise intersection over unbounded lists, correctness of the sweep depends on the sort order",
  [S+"process.py:_check_registers_clusters_address_overlaps"])
p("C18","Overlapping peripherals are always reported",
  "For every two peripherals whose effective (or specified) address ranges intersect, a warning naming both is issued unless alternatePeripheral declarations permit it, and none for disjoint ranges.",
  "every device",
  "pairwise intersection over unbounded lists",
  [S+"process.py:_check_peripheral_address_overlaps"])
p("C19","The set of permitted alternates is the connected alternate family",
  "The search for permitted alternates terminates for every (even cyclic) alternate declaration and returns exactly the elements reachable from the declared alternate by following alternate declarations in either direction.",
  "every finite alternate relation, including cycles and dangling names",
  "termination and reachability on arbitrary graphs",
  [S+"process.py:_compute_allowed_alternate_peripheral_names",S+"process.py:_compute_allowed_alternate_register_names",S+"process.py:_compute_allowed_alternate_cluster_names"])
p("C20","Elements disappear only for announced reasons",
  "Every register/cluster/peripheral/field of the resolved device reaches the processed device unless it is named 'reserved' (registers, fields), has a size that is not a multiple of 8, or is empty; each omission issues a warning.",
  "every device tree",
  "conservation over unbounded trees",
  [S+"process.py:_ValidateAndFinalize"])
p("C21","peripheral.registers is the flattened register tree",
  "peripheral.registers contains every register of the peripheral, including those in nested clusters, each exactly as often as in the tree, ordered by (base address, name).",
  "every peripheral tree",
  "unbounded nesting",
  [S+"process.py:_extract_registers"])
p("C22","Computed extents enclose all children tightly",
  "A cluster's end_address (a peripheral's end_address_effective) is the largest last byte of its children: no child extends beyond it and some child reaches it; cluster_size / peripheral_size_effective is end - base + 1.",
  "every device tree",
  "maximum over unbounded trees",
  [S+"process.py:_validate_and_finalize_register_cluster",S+"process.py:_validate_and_finalize_peripheral"])
p("C23","The memory map shows every register at its absolute address",
  "PeripheralRegisterMap lists for every peripheral exactly the registers of the processed device, each with address equal to its base_address, peripherals ordered by address.",
  "every processed device",
  "unbounded nesting",
  [S+"map.py:PeripheralRegisterMap._build_map"])
p("C24","allocated_range spans all address blocks",
  "MapPeripheral.allocated_range starts at the first byte of the lowest address block and ends at the last byte occupied by any address block.",
  "every list of address blocks",
  "all layouts including nested blocks",
  [S+"map.py:PeripheralRegisterMap._get_allocated_range"])
p("C25","Integers survive writing and reading",
  "Every integer written by the serializer, in decimal or 0x-hexadecimal form, is read back by the parser as the same integer; #-prefixed binary is read as binary; text that is not a number is rejected.",
  "every integer of either sign and any magnitude",
  "infinitely many integers",
  [S+"parse.py:_to_int",S+"serialize.py"])
p("C26","Booleans and enumerated attribute types survive writing and reading",
  "Every boolean and every member of every attribute enumeration (access, protection, cpu name, endian, ...) is read back as itself from the text the serializer writes; unknown texts are rejected (an unknown access type is dropped with a warning); access types, cpu names and booleans are accepted case-insensitively.",
  "every member of each enumeration and every text",
  "every text",
  [S+"model/types.py",S+"parse.py:_to_bool"])
p("C27","Serializing a device and parsing it again yields the same device",
  "Parser(Serializer(device)) returns a device equal to the given one.",
  "every SVDDevice",
  "the device space is infinite (nesting, optional attributes)",
  [S+"serialize.py:SVDDeviceSerializer",S+"parse.py:Parser._parse_device"])
p("C28","Parser element selection rules",
  "For a repeated simple child element the last occurrence is used, all <registers>/<fields> sections are concatenated in document order, and surrounding white space of non-description text is removed; every other element and attribute is read from exactly the place the format prescribes. The device is read if and only if everything mandatory is there; if all texts present are of the right kind, failing means ParserException.",
  "every XML element tree",
  "arbitrary documents",
  [S+"parse.py:Parser._parse_element_text",S+"parse.py:Parser._parse_fields"])
p("C29","XML decoding fallback order",
  "The file is parsed strictly first; fallback encodings are tried in the documented order, strict before recovering; the first success is returned, and if all attempts fail the original error is raised.",
  "every possible behaviour of the XML library on the input",
  "arbitrary inputs / library outcomes",
  [S+"util/xml_parse.py:safe_parse",S+"util/xml_parse.py:safe_fromstring"])
p("C30","Converting a processed device back keeps all information",
  "convert_processed_device_to_svd_device yields a description with the same peripherals, clusters, registers, fields, enumerated values and properties as the processed device.",
  "every processed device",
  "unbounded trees",
  [S+"util/process_parse_model_convert.py"])
p("C31","Processing is idempotent",
  "Processing the converted processed device again succeeds and yields an equal processed device.",
  "every processed device",
  "composition of the whole pipeline over all devices",
  [S+"process.py",S+"util/process_parse_model_convert.py",S+"resolve/resolver.py"])
p("C32","No unresolved derivedFrom is ever ignored",
  "If processing succeeds, every element with derivedFrom (and every copy of it) was merged with its base; if some derivedFrom path cannot be resolved, an exception is raised.",
  "every device",
  "all reference structures",
  [S+"resolve/resolver.py:Resolver.resolve_peripherals"])
p("C33","Circular derivedFrom is never accepted",
  "If elements derive from each other in a cycle of any length, processing raises; it neither succeeds nor loops.",
  "every cyclic derivedFrom structure, any cycle length",
  "cycles of any length through any level",
  [S+"resolve/graph.py:ResolverGraph.add_edge",S+"resolve/resolver.py:Resolver._resolve_placeholder"])
p("C34","The resolver's dependency graph stays acyclic and well formed",
  "At every point of the resolution the dependency graph has no cycle and every edge connects existing nodes, so that the topological order and the bottom-up pass visit every node.",
  "every device, every step of the algorithm",
  "all histories of graph operations",
  [S+"resolve/graph.py:ResolverGraph"])
p("C35","Bases are processed before the elements derived from them",
  "An element is only merged with a base that has itself been completely processed, whatever the document order (forward references work like backward references).",
  "every device and reference structure",
  "all orders",
  [S+"resolve/resolver.py",S+"resolve/graph.py:get_topological_sorted_nodes"])
p("C36","derivedFrom path lookup",
  "A derivedFrom path is looked up first among the element's siblings and then from the peripherals; only elements of the same level match, never the element itself; an ambiguous path raises (unless exactly one of the first two candidates found is a processed register outside any alternate group, which is then chosen).",
  "every graph state and path",
  "all paths and trees",
  [S+"resolve/resolver.py:Resolver._derived_from_path_resolving"])
p("C37","A derived element receives a copy of its base's children",
  "After merging, the derived element's children are its own children plus one copy of each child of the base, with the same attributes, recursively; the base itself is unchanged.",
  "every base subtree",
  "unbounded subtrees",
  [S+"resolve/graph.py:ResolverGraph.replicate_descendants"])
p("C38","Without derivedFrom, resolution is plain tree expansion",
  "For a device without derivedFrom the resolved device equals the recursive expansion of every element's dim, children sorted by (offset, name).",
  "every device without derivedFrom",
  "refinement of a graph algorithm for all trees",
  [S+"resolve/resolver.py:Resolver.resolve_peripherals"])
p("C39","CPU description is completed with the documented defaults",
  "Absent optional CPU features are false (vtorPresent true), absent SAU settings are enabled/secure, CM0+ is normalised to CM0PLUS; all given values are kept.",
  "every cpu description",
  "all presence patterns",
  [S+"process.py:Process._process_cpu"])
p("C40","At most one read and one write enumeration per field",
  "In an accepted device a field has at most two enumerated value containers, with different usages, and if it has two they are one read and one write container; a container without a stated usage is read-write.",
  "every field with any list of containers",
  "all lists",
  [S+"resolve/resolver.py:Resolver._finalize_field_node"])
p("C41","Register and cluster sizes are machine sizes",
  "Every register/cluster of an accepted device has size 8, 16, 32, 64 or 128 bits; a misaligned address offset is reported by a warning; other multiples of 8 raise.",
  "every device",
  "all sizes",
  [S+"process.py:_get_alignment",S+"process.py:_to_byte"])
p("C42","Processing terminates",
  "Process finishes (with a device or an exception) for every device.",
  "every device",
  "termination",
  [S+"resolve/resolver.py:Resolver.resolve_peripherals",S+"process.py:_compute_allowed_alternate_peripheral_names"])
p("C43","Semantic errors surface as ProcessException",
  "If Process rejects a device description it raises ProcessException (not a raw Python error).",
  "every device",
  "all error paths",
  [S+"process.py:Process._process_device"])
p("C44","Defects of single elements are diagnosed exactly",
  "Processing warns about every peripheral whose base address is no multiple of 4, every address block that starts before the end of its predecessor, every register or cluster whose offset is not aligned to min(size in bytes, 4), and every field whose most significant bit lies outside its register; and (dropped elements apart) it issues these warnings for nothing else.",
  "every accepted device",
  "every element at any depth of every device",
  [S+"process.py:_ValidateAndFinalize._validate_and_finalize_register_cluster",S+"process.py:_ValidateAndFinalize._validate_and_finalize_fields",S+"process.py:_ValidateAndFinalize._validate_address_blocks"])
p("C45","An accepted device is structurally complete",
  "In an accepted device every peripheral has address blocks and registers, every cluster has children, no register names both an alternate register and an alternate group, and nothing is named reserved; descriptions violating the address-block or alternate rule are rejected with ProcessException.",
  "every device",
  "every element at any depth",
  [S+"process.py:_ValidateAndFinalize._validate_and_finalize_peripheral",S+"process.py:_ValidateAndFinalize._validate_and_finalize_register_cluster"])
p("C46","A processed device is exactly the expansion of its description",
  "If Process accepts a description in which no derived cluster lies inside of an element that another element is derived from (inside of a base peripheral it may, if derived peripherals state names of peripherals), its peripherals are exactly the element-by-element expansion: every element stands for one element, or for one per dim index, with the attributes it states or takes from its base - which, if it is given by a plain name, is one of its own siblings, counting inherited ones -, and with its own children plus those of its base below each instance; every declared element has at least one instance, every resulting element is an instance of a declared one.",
  "every accepted device description without derived clusters inside of base clusters, any nesting depth, any dim, any mix of derivedFrom on peripherals, clusters, registers, fields and enumerated value containers",
  "all shapes of the dependency graph and all orders in which the resolver works",
  [S+"resolve/resolver.py:Resolver.resolve_peripherals",S+"resolve/graph.py",S+"process.py:Process._process_device"])
p("C47","Derived clusters are expanded like other elements",
  "A cluster with derivedFrom stands, like any other derived element, for an element (or one per dim index) with its own children plus those of its base, wherever it is written, also when its base contains derived clusters itself.",
  "every accepted device description with derived clusters",
  "all shapes of nested derivation",
  [S+"resolve/resolver.py:Resolver._update_node",S+"resolve/graph.py:ResolverGraph.replicate_descendants"])
p("C48","The validator answers for the chosen schema version",
  "Validator.validate_xml_* returns True exactly if the document can be read and is valid under the packaged schema of the requested version; with get_exception an invalid document raises the schema's error and never returns False, without it an invalid document returns False and never raises for being invalid; a missing schema file raises ValidatorException; no version given means the newest one of the enumeration by version number (1.3.11, not 1.3.9); different versions use different files.",
  "every document, schema, file system content, flag and version; every enumeration of versions for the choice of the newest",
  "all combinations of reading, schema and validity outcomes of the XML library, and all version lists",
  [S+"validate.py:Validator._validate",S+"validate.py:SVDSchemaVersion.get_latest"])
p("C49","Descriptions that keep the element rules are accepted by the resolver",
  "A description without derivedFrom, with at least one peripheral, in which every element keeps the local rules (placeholder, dim and dimIndex fit together; stated sizes are not negative; each field has a readable bit position, at most one enumeratedValues container or one for reading and one for writing, readable values and at most one default entry) is always resolved and expanded, and then accepted exactly if the expanded tree keeps the validation rules (C50): no nesting, number of elements or combination of dims makes Process fail or run forever.",
  "every description without derivedFrom that keeps the rules, of any size and nesting",
  "acceptance has to be shown for all nestings of arrays, lists and containers, a test accepts single files",
  [S+"process.py:Process._process_device",S+"resolve/resolver.py:Resolver",S+"process.py:_ProcessDimension",S+"process.py:_ProcessEnumeratedValueContainer"])
p("C50","Validation accepts exactly the devices that keep its rules",
  "An expanded device passes validation if and only if, after leaving out elements with a size that is no number of bytes, reserved registers and fields, and empty clusters and peripherals: sizes are 8, 16, 32, 64 or 128 bits, sibling names (with alternateGroup) and peripheral names are unique, no register has both alternateRegister and alternateGroup, no two fields with a common access share a bit, enumerated values have values, alternateCluster and alternatePeripheral name existing siblings, and every peripheral has an address block. Everything else is rejected with an exception.",
  "every expanded device",
  "both directions of an equivalence over all device trees",
  [S+"process.py:_ValidateAndFinalize",S+"process.py:_InheritProperties"])
p("C51","What processing a processed device again yields",
  "Converting a processed device back into a description and processing that is accepted if and only if at least one peripheral is left and no name carries a leftover placeholder; the outcome is the same device, except that later enumerated values with an already used name are left out and that the size of every cluster and peripheral is the largest size among the elements left in it; a further round changes nothing.",
  "every accepted device description, with or without derivedFrom",
  "an equivalence over all device trees; a test compares single files",
  [S+"process.py:Process.convert_processed_device_to_svd_device",S+"process.py:Process._process_device",S+"process.py:_ValidateAndFinalize"])
p("C52","Descriptions in which only peripherals are derived are accepted by the resolver",
  "A description in which only peripherals carry derivedFrom, each naming (with a plain name that exactly one peripheral has) a peripheral that is itself not derived or derived in the same way, and whose elements otherwise keep the local rules (C49; an array of peripherals states its dim or takes it over from its base), is always resolved and expanded, in whatever order bases and derived peripherals are declared and however long the chains are, and then accepted exactly if the expanded tree keeps the validation rules (C50).",
  "every description whose only derived elements are such peripherals, of any size, nesting, order and chain length",
  "acceptance has to be shown for all derivation chains, orders and nestings; a test accepts single files",
  [S+"process.py:Process._process_device",S+"resolve/resolver.py:Resolver",S+"resolve/graph.py:ResolverGraph"])
p("C53","The order in which siblings are written does not matter",
  "Writing the peripherals of a description, the registers and clusters of a peripheral or cluster, the fields of a register or the enumeratedValues containers of a field in another order does not change the outcome: both descriptions are rejected, or both yield the same device (all attributes equal, elements in the same order).",
  "every description and every reordering of siblings at every level",
  "all permutations at all levels of all descriptions; a test compares a few",
  [S+"process.py:Process._process_device",S+"resolve/resolver.py:Resolver",S+"process.py:_ValidateAndFinalize"])
p("C54","Loading a file, processing it, exporting the result and loading the export gives the device back",
  "Take a file without blank texts (and without empty parts in a dimIndex) that is parsed and accepted with at least one peripheral left. Converting the processed device, writing it as XML (plain or pretty printed) and parsing that file succeeds; the description read states every attribute of the device, and processing it succeeds iff no name still carries a placeholder; it then yields the device itself up to enumerated values that share a name and the sizes of clusters and peripherals, and exactly the device when these are settled.",
  "every XML document, every device it is processed to, every way of laying out the exported file",
  "a statement about the whole tool chain for all files; a test follows single files through it",
  [S+"parse.py:Parser",S+"process.py:Process",S+"util/process_parse_model_convert.py:process_parse_convert_device",S+"serialize.py:Serializer"])
p("C55","Display names of the instances of a register array or list",
  "Instance i of a register array or list carries the display name with every placeholder replaced by the i-th index, the one its name carries; this is the register's own displayName or else the displayName it takes over from the register it is derived from; without either there is none.",
  "every register with dim, display name, dimIndex and base",
  "the number of instances and the texts are unbounded",
  [S+"process.py:_ProcessDimension.process_dim",S+"process.py:Process._process_register",S+"process.py:Process._extract_and_process_dimension",S+"resolve/resolver.py:Resolver._post_process_dim_elements"])
p("C56","Elements derived from those written beside them are accepted by the resolver, at every level",
  "A description in which any peripheral, cluster, register or field may be derived, stating the plain name that exactly one element of its kind among those beside it has (among the peripherals, or among the own and taken-over contents of the surrounding element; no instance of an array or list there has that name), directly or through others from an element that is not derived, is always resolved and expanded, in whatever order bases and derived elements are written and however long the chains are, provided that the elements keep the local rules (C49) with what they state or take over (dim, dimIndex, displayName, bit positions, enumerated values) and that nothing inside of an element that may be a base is derived; it is then accepted exactly if the expanded tree keeps the validation rules (C50).",
  "every description whose derived elements are such, of any size, nesting, order and chain length",
  "acceptance has to be shown for all derivation chains, orders and nestings at all levels; a test accepts single files",
  [S+"process.py:Process._process_device",S+"resolve/resolver.py:Resolver",S+"resolve/graph.py:ResolverGraph"])
p("C57","Schema-valid documents are read",
  "Every document that is valid against the packaged CMSIS-SVD schema (1.3.11.xsd) is read without an error, and the description is the one the document states (C28), provided that its numbers are written without scale factor and only with the digits of their base, its identifiers are not empty, and its keywords contain no more than single blanks. These restrictions are needed: valid documents with a scale factor (1k), with hexadecimal digits but no 0x, with an empty identifier or with two blanks in a data type are rejected.",
  "every XML document that is valid against the schema",
  "the schema admits unboundedly many documents of any size and nesting; tests read single files",
  [S+"parse.py:Parser",S+"types.py","src/svdsuite/schema/1.3.11.xsd",S+"validate.py:Validator"])
p("C58","Valid documents are rewritten as valid documents and survive it",
  "Writing a description whose texts, numbers and combinations of elements the schema allows gives a document that is valid against the packaged schema: all required elements are there, and all elements are in the order, number and notation the schema asks for. In particular, reading a valid document (with the restrictions of C57, and with no blank strings, no empty cluster description, and bitWidth after bitOffset) and writing it again gives a valid document, which is read as the same description. The restrictions are needed. The documents exported from processed devices are in general not valid: only if a protection is given for the device and every address block, and no field has enumerated values.",
  "every description that conforms to the schema, every valid document, every processed device",
  "validity of the output concerns all combinations of optional elements at every level; tests compare single outputs",
  [S+"serialize.py:Serializer",S+"parse.py:Parser",S+"util/process_parse_model_convert.py:process_parse_convert_device","src/svdsuite/schema/1.3.11.xsd"])
p("C59","The notations of the schema are understood by the processing",
  "Texts the schema only restricts to a notation are understood by the processing. An enumerated value of the schema's notation (decimal, 0x hexadecimal, # or 0b binary with don't-care bits) without a leading + stands for exactly the numbers it denotes, and a container of such values (without default and reserved entries) is processed; a value with a leading +, although valid, makes the processing fail with a ProcessException. Every bitRange of the schema, in any order of its two numbers and with blanks around it, gives a field with these limits, 0 <= lsb <= msb <= 69. Every dimIndex of the schema is either a descending range (one letter to itself included), which is rejected with a ProcessException, or denotes a list of names that is used if it has dim entries. So a valid file (with the restrictions of C58) that keeps the rules of C49 (or C52) for arrays, lists, defaults and usages, which the schema does not express, is read and expanded as it says, and accepted exactly if the expanded device is acceptable.",
  "every text of the schema's notations, every container, every field, every document valid against the schema",
  "the notations have unboundedly many texts and the files unboundedly many shapes; tests use single texts and files",
  [S+"process.py:_ProcessEnumeratedValueContainer",S+"process.py:Process",S+"process.py:_ProcessDimension",S+"parse.py:Parser","src/svdsuite/schema/1.3.11.xsd"])
p("C60","The log of the resolver is faithful and has no influence",
  "Giving a log file name to Process changes neither the result, nor the warnings, nor the exception (as long as the graphs can be drawn); without one nothing is logged or written. Whatever the outcome, including a graph that cannot be drawn, exactly one text is written to the file: the page with everything logged so far; it is written when the logger is destroyed and never before (so not yet when Process returns). The log is a sequence of headings, paragraphs, listings and pictures in which pictures and rounds are numbered 1, 2, ... For an accepted description it shows the graph as constructed, the graph with the references linked, every round with the references resolved, the elements processed and the graphs in between; no element number is listed twice; every element of the description has exactly one line with its name and kind, and if nothing states derivedFrom there are no other lines. Names are inserted without escaping, so a name can hide the rest of the page.",
  "every description, accepted or rejected, every behaviour of the drawing (including failures), every page template and compression",
  "the log depends on the whole course of the resolution, which is different for every description, and on failures at any point; tests look at single pages",
  [S+"resolve/logger.py:ResolverLogger",S+"util/html_generator.py:HTMLGenerator",S+"resolve/resolver.py:Resolver",S+"process.py:Process"])
p("C61","The pictures in the log show the state of the resolution",
  "Every picture in the resolver's log has exactly one box for each node of the graph and one arrow for each edge. The box of an element shows its name, kind and number, blue if it has been processed, black if not; the box of a derivedFrom reference that has not been resolved shows its path, in red; arrows are black, blue, red or green according to the kind of edge. No two boxes have the same text (except boxes of the device), and graphs with the same pictures have the same nodes, names, kinds, states, open references and edges; only an element without a name cannot be told from one called 'no name'. The last picture in the log of an accepted description is blue: every element has been processed and no reference is left.",
  "every graph; every description that is accepted, with any renderer",
  "the graphs are unbounded and different in every round of every description; a test compares single pictures",
  [S+"resolve/graph.py:ResolverGraph.get_svg",S+"resolve/logger.py:ResolverLogger",S+"resolve/resolver.py:Resolver"])
p("C62","The parser reports exactly what it repairs or ignores",
  "When a document is read, a warning is given for every element read that is given more than once (only the last one counts), for every value or attribute read with white space around it that is removed, for every unknown access type (treated as absent), for an interrupt without a value (taken as 0), for a device without a description and for a missing schema location - and no other warning is given. Texts that are kept as they are (descriptions, disable conditions, the license) and parts of the document that are not read cause none. Even if the document is rejected in the end, the warnings given before are true of it; a plain document is read in silence.",
  "every XML document",
  "what is peculiar can be anywhere in a document of any depth, in any combination; a test looks at single oddities in small documents",
  [S+"parse.py:Parser",S+"model/types.py:AccessType.from_str"])
p("C63","Back pointers of the parsed model",
  "The model returned by the parser is a tree of separate objects, one for every element read; every object's parent is the object it is listed under, every object is listed under at most one object, the device has no parent, and models built before are left alone. The model converted from a processed device is such a tree of the elements of the device too. (REFUTED for write constraints of converted models: their parent is never set.)",
  "every parsed description, every processed device, every store of objects existing before",
  "any of the assignments to parent can be missed or hit the wrong object in one of the many kinds of nested elements; a test follows a few pointers of small documents",
  [S+"parse.py:Parser",S+"util/process_parse_model_convert.py:process_parse_convert_device"])
p("C64","How elements are joined while derivedFrom is resolved",
  "In every state of the resolution of a device, elements are nested only as a document can nest them (peripherals in the device, registers and clusters in peripherals and clusters, fields in registers, containers of enumerated values in fields), an element and its base are of the same kind, every unresolved derivedFrom reference belongs to exactly one waiting element and to exactly one element that element could be a child of, and a peripheral waits for at most one base, and for none once its value is known.",
  "every description, and every graph reached from it by resolving references and processing elements in any order",
  "copies of subtrees with references inside and the instances of arrays add edges in every round; a test looks at the graph of a few small devices, mostly at the end",
  [S+"resolve/graph.py:ResolverGraph",S+"resolve/resolver.py:Resolver"])
if __name__=="__main__":
    out=os.path.join(os.path.dirname(os.path.abspath(__file__)),"..","properties.jsonl")
    with open(out,"w") as f:
        for d in P: f.write(json.dumps(d)+"\n")
    print(len(P))
