{
 "claims": [
  {
   "property": "C01",
   "status": "proved",
   "theorems": [
    "C01_wildcard_single",
    "C01_wildcard_container",
    "C01_device_wildcards"
   ],
   "note": ""
  },
  {
   "property": "C02",
   "status": "proved",
   "theorems": [
    "C02_device_values",
    "C02_values_distinct_ascending_in_range"
   ],
   "note": ""
  },
  {
   "property": "C03",
   "status": "proved",
   "theorems": [
    "C03_default_completes",
    "C03_device_default"
   ],
   "note": ""
  },
  {
   "property": "C04",
   "status": "partial",
   "theorems": [
    "C04_names_unique_partial",
    "C04_names_unique_refuted"
   ],
   "note": "unique unless a default is expanded; the expansion can generate a name already used (machine-checked counterexample)"
  },
  {
   "property": "C05",
   "status": "proved",
   "theorems": [
    "C05_dim_instances",
    "C05_no_dim_single"
   ],
   "note": ""
  },
  {
   "property": "C06",
   "status": "proved",
   "theorems": [
    "C06_names_differ"
   ],
   "note": ""
  },
  {
   "property": "C07",
   "status": "proved",
   "theorems": [
    "C07_dim_index",
    "C07_descending"
   ],
   "note": ""
  },
  {
   "property": "C08",
   "status": "partial",
   "theorems": [
    "C08_malformed_rejected_partial",
    "C08_malformed_refuted"
   ],
   "note": "some malformed dimIndex texts raise ValueError/TypeError instead (counterexample proved)"
  },
  {
   "property": "C09",
   "status": "proved",
   "theorems": [
    "C09_field_bits",
    "C09_no_bits_rejected",
    "C09_notations_equivalent"
   ],
   "note": ""
  },
  {
   "property": "C10",
   "status": "proved",
   "theorems": [
    "C10_peripheral",
    "C10_cluster",
    "C10_register",
    "C10_field",
    "C10_no_base"
   ],
   "note": ""
  },
  {
   "property": "C11",
   "status": "proved",
   "theorems": [
    "C11_nearest_level"
   ],
   "note": ""
  },
  {
   "property": "C12",
   "status": "partial",
   "theorems": [
    "C12_effective_sizes_partial",
    "C12_device_size_refuted"
   ],
   "note": "C12_effective_sizes_partial gives every size of the processed device as a function of the description, for all descriptions without derivedFrom; with derivedFrom the sizes are part of C46_expansion. FALSE as stated in one point: a size given on the device is ignored, 32 is used in its place (counterexample)"
  },
  {
   "property": "C13",
   "status": "proved",
   "theorems": [
    "C13_absolute_addresses"
   ],
   "note": ""
  },
  {
   "property": "C14",
   "status": "proved",
   "theorems": [
    "C14_sorted"
   ],
   "note": ""
  },
  {
   "property": "C15",
   "status": "proved",
   "theorems": [
    "C15_unique_names"
   ],
   "note": ""
  },
  {
   "property": "C16",
   "status": "proved",
   "theorems": [
    "C16_no_shared_bits",
    "C16_accepted_iff",
    "C16_rejected"
   ],
   "note": ""
  },
  {
   "property": "C17",
   "status": "proved",
   "theorems": [
    "C17_overlaps_reported",
    "C17_overlaps_justified"
   ],
   "note": ""
  },
  {
   "property": "C18",
   "status": "proved",
   "theorems": [
    "C18_overlaps_reported",
    "C18_overlaps_justified"
   ],
   "note": ""
  },
  {
   "property": "C19",
   "status": "proved",
   "theorems": [
    "C19_family",
    "C19_family_strict"
   ],
   "note": ""
  },
  {
   "property": "C20",
   "status": "proved",
   "theorems": [
    "C20_nothing_lost"
   ],
   "note": ""
  },
  {
   "property": "C21",
   "status": "proved",
   "theorems": [
    "C21_flattened_registers",
    "C21_flattened_registers_in"
   ],
   "note": ""
  },
  {
   "property": "C22",
   "status": "proved",
   "theorems": [
    "C22_extents"
   ],
   "note": ""
  },
  {
   "property": "C23",
   "status": "proved",
   "theorems": [
    "C23_memory_map"
   ],
   "note": ""
  },
  {
   "property": "C24",
   "status": "partial",
   "theorems": [
    "C24_allocated_range_partial",
    "C24_allocated_range_start",
    "C24_allocated_range_refuted"
   ],
   "note": "false when an address block is nested in another (counterexample); proved for blocks that do not overlap"
  },
  {
   "property": "C25",
   "status": "partial",
   "theorems": [
    "C25_written_read",
    "C25_reads_numerals",
    "C25_binary",
    "C25_rejects_partial",
    "C25_rejects_refuted"
   ],
   "note": "everything but one clause: a text such as 0x#1 is not rejected but read as 177 (counterexample); texts without # are rejected exactly when they are no numeral"
  },
  {
   "property": "C26",
   "status": "proved",
   "theorems": [
    "C26_booleans",
    "C26_keywords",
    "C26_unknown_rejected",
    "C26_cpu",
    "C26_access"
   ],
   "note": ""
  },
  {
   "property": "C27",
   "status": "partial",
   "theorems": [
    "C27_round_trip_partial",
    "C27_exactly_kept",
    "C27_only_faithful",
    "C27_serialize_total",
    "C27_characters",
    "C27_round_trip_refuted"
   ],
   "note": "false in general (four counterexamples: lone bitOffset, no peripherals, empty optional or mandatory text); proved what exactly is kept for every device with peripherals and non-empty mandatory texts, and which devices come back equal"
  },
  {
   "property": "C28",
   "status": "proved",
   "theorems": [
    "C28_reads",
    "C28_missing",
    "C28_error_classes",
    "C28_unambiguous"
   ],
   "note": "the reading relation of SpecParse is met exactly; a repeated element without text raises TypeError (C28_empty_repeated)"
  },
  {
   "property": "C29",
   "status": "proved",
   "theorems": [
    "C29_fallback_order"
   ],
   "note": ""
  },
  {
   "property": "C30",
   "status": "proved",
   "theorems": [
    "C30_shows_everything",
    "C30_nothing_lost",
    "C30_exported"
   ],
   "note": ""
  },
  {
   "property": "C31",
   "status": "partial",
   "theorems": [
    "C31_again",
    "C31_identity_iff",
    "C31_idempotent_refuted"
   ],
   "note": "false in general (four counterexamples: a left-out element determines a size, coinciding generated names of enumerated values, no peripheral left, a name with a leftover placeholder); proved: exactly which devices come back equal, and what exactly the second processing yields otherwise"
  },
  {
   "property": "C32",
   "status": "partial",
   "theorems": [
    "C32_C35_derivation_applied_partial",
    "C32_C35_enum_containers_refuted"
   ],
   "note": "false for enumerated value containers (counterexample); proved for peripherals, clusters, registers and fields of descriptions where no derived cluster lies inside of a base"
  },
  {
   "property": "C33",
   "status": "partial",
   "theorems": [
    "C33_circular_rejected_partial",
    "C33_peripheral_cycle_rejected",
    "C33_circular_siblings_rejected",
    "C33_sibling_cycle_rejected",
    "C33_enum_containers_refuted"
   ],
   "note": "false for enumerated value containers: two containers deriving from each other are accepted (counterexample); proved for peripherals, clusters, registers and fields of descriptions where no derived cluster lies inside of a base, cycles of any length"
  },
  {
   "property": "C34",
   "status": "proved",
   "theorems": [
    "C34_acyclic_wellformed",
    "C34_resolver_graphs"
   ],
   "note": ""
  },
  {
   "property": "C35",
   "status": "partial",
   "theorems": [
    "C32_C35_derivation_applied_partial",
    "C32_C35_enum_containers_refuted"
   ],
   "note": "false for enumerated value containers (counterexample); proved for peripherals, clusters, registers and fields of descriptions where no derived cluster lies inside of a base"
  },
  {
   "property": "C36",
   "status": "proved",
   "theorems": [
    "C36_path_lookup",
    "C36_candidates",
    "C36_ambiguous_raises"
   ],
   "note": "on every graph state; a processed register outside alternate groups wins over other candidates, otherwise ambiguity raises"
  },
  {
   "property": "C37",
   "status": "proved",
   "theorems": [
    "C37_children_copied",
    "C37_applied"
   ],
   "note": ""
  },
  {
   "property": "C38",
   "status": "proved",
   "theorems": [
    "C38_plain_expansion"
   ],
   "note": ""
  },
  {
   "property": "C39",
   "status": "proved",
   "theorems": [
    "C39_cpu_defaults"
   ],
   "note": ""
  },
  {
   "property": "C40",
   "status": "proved",
   "theorems": [
    "C40_read_write_containers",
    "C40_container_usage"
   ],
   "note": ""
  },
  {
   "property": "C41",
   "status": "proved",
   "theorems": [
    "C41_machine_sizes",
    "C41_other_sizes_rejected"
   ],
   "note": ""
  },
  {
   "property": "C42",
   "status": "partial",
   "theorems": [
    "C42_terminates_partial",
    "C42_loop_check_never_fires"
   ],
   "note": "the loop check of the resolver is dead code; descriptions with derived clusters inside of clusters that may be bases are not covered"
  },
  {
   "property": "C43",
   "status": "partial",
   "theorems": [
    "C43_finalization_errors_partial",
    "C43_error_classes",
    "C43_raw_sources",
    "C43_key_error",
    "C43_key_error_names",
    "C43_sources_reached",
    "C43_exact",
    "C43_classes_exact",
    "C43_only_ProcessException_refuted"
   ],
   "note": "false as stated: KeyError, AttributeError, ValueError, TypeError, ResolveException leave Process (counterexamples); proved instead: exactly thirteen statements are where an exception other than ProcessException and KeyError comes from (C43_exact, both directions), and exactly six classes leave Process (C43_classes_exact)"
  },
  {
   "property": "C44",
   "status": "proved",
   "theorems": [
    "C44_defects_reported",
    "C44_diagnostics_justified"
   ],
   "note": "warnings of dropped elements remain: stated in the hypotheses of the converse"
  },
  {
   "property": "C45",
   "status": "proved",
   "theorems": [
    "C45_accepted_structure",
    "C45_both_alternates_rejected",
    "C45_no_blocks_rejected"
   ],
   "note": ""
  },
  {
   "property": "C46",
   "status": "proved",
   "theorems": [
    "C46_expansion",
    "C46_every_element",
    "C46_children_among_siblings",
    "C46_nothing_invented"
   ],
   "note": ""
  },
  {
   "property": "C47",
   "status": "partial",
   "theorems": [
    "C46_expansion",
    "C32_C35_derivation_applied_partial",
    "C47_derived_clusters_refuted"
   ],
   "note": "false when the base contains derived clusters (counterexample); proved when no derived cluster lies inside of a base cluster"
  },
  {
   "property": "C48",
   "status": "proved",
   "theorems": [
    "C48_latest",
    "C48_verdict",
    "C48_default",
    "C48_packaged",
    "C48_distinct_files"
   ],
   "note": "lxml's assertValid raising exactly for invalid documents is a hypothesis (assert_contract)"
  },
  {
   "property": "C49",
   "status": "proved",
   "theorems": [
    "C49_resolved",
    "C49_accepted_iff"
   ],
   "note": "rules: SpecAccept.ElementRules; without derivedFrom"
  },
  {
   "property": "C50",
   "status": "proved",
   "theorems": [
    "C50_accepted_iff",
    "C50_rejected_iff"
   ],
   "note": "rules: SpecAccept.Acceptable on the resolved device, before inheritance of register properties"
  },
  {
   "property": "C51",
   "status": "proved",
   "theorems": [
    "C31_again",
    "C31_settles",
    "C31_identity_iff"
   ],
   "note": "shares its theorems with C31, whose full statement (always the same device) is false"
  },
  {
   "property": "C52",
   "status": "proved",
   "theorems": [
    "C52_resolved",
    "C52_accepted_iff"
   ],
   "note": "rules: SpecAccept.DerivedRules; C49 is its special case without derivedFrom"
  },
  {
   "property": "C53",
   "status": "partial",
   "theorems": [
    "C53_order_of_siblings_partial",
    "C53_order_derived_siblings_partial",
    "C53_order_refuted"
   ],
   "note": "proved for descriptions in which at most peripherals are derived, by the plain name of one peripheral (rules as in C52), and for those in which elements at any level are derived from those beside them (rules as in C56); the claim is FALSE in general: a register derived from one with a derived field is refused with a raw AttributeError if it is written before its base, accepted after it"
  },
  {
   "property": "C54",
   "status": "proved",
   "theorems": [
    "C54_file_to_file",
    "C54_same_device",
    "C54_read_trimmed",
    "C54_empty_refuted"
   ],
   "note": "the condition on empty texts is needed (C54_empty_refuted): a dimIndex such as A,B,,C is accepted and makes an empty register name, after which the exported file cannot be parsed; a blank displayName is lost. Missing from the model: the bytes of the file (lxml's writer and reader are the relation RereadDoc)"
  },
  {
   "property": "C55",
   "status": "partial",
   "theorems": [
    "C55_display_instances_partial",
    "C55_derived_display_refuted"
   ],
   "note": "proved for the display name the resolver passes on; refuted for derived arrays: an array hands on the display name of its first instance, so every instance of an array derived from it without own displayName is shown as number 0 (C55_derived_display_refuted)"
  },
  {
   "property": "C56",
   "status": "proved",
   "theorems": [
    "C56_resolved",
    "C56_accepted_iff"
   ],
   "note": "rules: SpecAccept.SiblingRules; what the expansion is follows from C46. The restriction on the contents of bases is needed: derived elements inside of bases can lead to raw errors (C43, C53)"
  },
  {
   "property": "C57",
   "status": "proved",
   "theorems": [
    "C57_valid_read",
    "C57_scopes",
    "C57_restrictions_needed"
   ],
   "note": "the schema is transcribed in SpecSchema.v; scope Readable states the restrictions, and C57_restrictions_needed shows valid documents outside of it that are rejected"
  },
  {
   "property": "C58",
   "status": "proved",
   "theorems": [
    "C58_written",
    "C58_rewritten",
    "C58_survives",
    "C58_restrictions_needed",
    "C58_export_refuted",
    "C58_export_values_refuted"
   ],
   "note": "the general claim for exported devices (all exports are valid) is refuted: C58_export_refuted gives necessary conditions, C58_export_values_refuted a concrete device; C58_nonvacuous, C58_export_nonvacuous are concrete positive cases"
  },
  {
   "property": "C59",
   "status": "proved",
   "theorems": [
    "C59_enum_values",
    "C59_enum_plus",
    "C59_bit_ranges",
    "C59_dim_index",
    "C59_file_resolved",
    "C59_file_resolved_derived"
   ],
   "note": "C59_nonvacuous and C59_texts are concrete cases"
  },
  {
   "property": "C60",
   "status": "proved",
   "theorems": [
    "C60_same_outcome",
    "C60_written_once",
    "C60_numbered",
    "C60_story",
    "C60_file_on_return_refuted",
    "C60_escaped_refuted"
   ],
   "note": "drawing, lxml, gzip and the page templates are parameters; C60_nonvacuous and C60_sample_rounds are concrete cases"
  },
  {
   "property": "C61",
   "status": "proved",
   "theorems": [
    "C61_picture",
    "C61_texts_distinct",
    "C61_readable",
    "C61_finished",
    "C61_no_name_refuted"
   ],
   "note": "what Graphviz makes of the statements is a parameter; C61_nonvacuous is a concrete case"
  },
  {
   "property": "C62",
   "status": "proved",
   "theorems": [
    "C62_warns_exactly",
    "C62_never_spurious",
    "C62_silent"
   ],
   "note": "the texts of the warnings are abstracted to their kind and the name of the element; how often the same warning is repeated is not stated"
  },
  {
   "property": "C63",
   "status": "partial",
   "theorems": [
    "C63_parsed",
    "C63_parents",
    "C63_one_owner",
    "C63_converted",
    "C63_converted_parents",
    "C63_constraint_refuted"
   ],
   "note": "refuted for converted models: the parent of a write constraint of a field or register is never set by process_parse_model_convert.py; everything else is proved; the references of an object are one list in the model"
  },
  {
   "property": "C64",
   "status": "proved",
   "theorems": [
    "C64_joined",
    "C64_resolver_graphs"
   ],
   "note": "SpecEdges.v: what contains what, and the graphs the resolver goes through"
  }
 ]
}