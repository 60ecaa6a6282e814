#!/usr/bin/env python3
"""Regenerates /verif/MANIFEST.json; checks that every named theorem exists in rocq/theories."""
import json, os, re, glob
here=os.path.dirname(os.path.abspath(__file__))
known=set()
for f in glob.glob(os.path.join(here,"../rocq/theories/*.v")):
    known|=set(re.findall(r"^ *(?:Theorem|Lemma|Example|Corollary) (\w+)",open(f).read(),re.M))
C=[]
def c(p,status,ths,note=""):
    for t in ths:
        assert t in known, t
    C.append(dict(property=p,status=status,theorems=ths,note=note))
c("C01","proved",["C01_wildcard_single","C01_wildcard_container","C01_device_wildcards"])
c("C02","proved",["C02_device_values","C02_values_distinct_ascending_in_range"])
c("C03","proved",["C03_default_completes","C03_device_default"])
c("C04","partial",["C04_names_unique_partial","C04_names_unique_refuted"],"unique unless a default is expanded; the expansion can generate a name already used (machine-checked counterexample)")
c("C05","proved",["C05_dim_instances","C05_no_dim_single"])
c("C06","proved",["C06_names_differ"])
c("C07","proved",["C07_dim_index","C07_descending"])
c("C08","partial",["C08_malformed_rejected_partial","C08_malformed_refuted"],"some malformed dimIndex texts raise ValueError/TypeError instead (counterexample proved)")
c("C09","proved",["C09_field_bits","C09_no_bits_rejected","C09_notations_equivalent"])
c("C10","proved",["C10_peripheral","C10_cluster","C10_register","C10_field","C10_no_base"])
c("C11","proved",["C11_nearest_level"])
c("C12","partial",["C12_effective_sizes_partial","C12_device_size_refuted"],"C12_effective_sizes_partial gives every size of the processed device as a function of the description, for all descriptions without derivedFrom; with derivedFrom the sizes are part of C46_expansion. FALSE as stated in one point: a size given on the device is ignored, 32 is used in its place (counterexample)")
c("C13","proved",["C13_absolute_addresses"])
c("C14","proved",["C14_sorted"])
c("C15","proved",["C15_unique_names"])
c("C16","proved",["C16_no_shared_bits","C16_accepted_iff","C16_rejected"])
c("C17","proved",["C17_overlaps_reported","C17_overlaps_justified"])
c("C18","proved",["C18_overlaps_reported","C18_overlaps_justified"])
c("C19","proved",["C19_family","C19_family_strict"])
c("C20","proved",["C20_nothing_lost"])
c("C21","proved",["C21_flattened_registers","C21_flattened_registers_in"])
c("C22","proved",["C22_extents"])
c("C23","proved",["C23_memory_map"])
c("C24","partial",["C24_allocated_range_partial","C24_allocated_range_start","C24_allocated_range_refuted"],"false when an address block is nested in another (counterexample); proved for blocks that do not overlap")
c("C25","partial",["C25_written_read","C25_reads_numerals","C25_binary","C25_rejects_partial","C25_rejects_refuted"],"everything but one clause: a text such as 0x#1 is not rejected but read as 177 (counterexample); texts without # are rejected exactly when they are no numeral")
c("C26","proved",["C26_booleans","C26_keywords","C26_unknown_rejected","C26_cpu","C26_access"])
c("C27","partial",["C27_round_trip_partial","C27_exactly_kept","C27_only_faithful","C27_serialize_total","C27_characters","C27_round_trip_refuted"],"false in general (four counterexamples: lone bitOffset, no peripherals, empty optional or mandatory text); proved what exactly is kept for every device with peripherals and non-empty mandatory texts, and which devices come back equal")
c("C28","proved",["C28_reads","C28_missing","C28_error_classes","C28_unambiguous"],"the reading relation of SpecParse is met exactly; a repeated element without text raises TypeError (C28_empty_repeated)")
c("C29","proved",["C29_fallback_order"])
c("C30","proved",["C30_shows_everything","C30_nothing_lost","C30_exported"])
c("C31","partial",["C31_again","C31_identity_iff","C31_idempotent_refuted"],"false in general (four counterexamples: a left-out element determines a size, coinciding generated names of enumerated values, no peripheral left, a name with a leftover placeholder); proved: exactly which devices come back equal, and what exactly the second processing yields otherwise")
c("C32","partial",["C32_C35_derivation_applied_partial","C32_C35_enum_containers_refuted"],"false for enumerated value containers (counterexample); proved for peripherals, clusters, registers and fields of descriptions where no derived cluster lies inside of a base")
c("C33","partial",["C33_circular_rejected_partial","C33_peripheral_cycle_rejected","C33_circular_siblings_rejected","C33_sibling_cycle_rejected","C33_enum_containers_refuted"],"false for enumerated value containers: two containers deriving from each other are accepted (counterexample); proved for peripherals, clusters, registers and fields of descriptions where no derived cluster lies inside of a base, cycles of any length")
c("C34","proved",["C34_acyclic_wellformed","C34_resolver_graphs"])
c("C35","partial",["C32_C35_derivation_applied_partial","C32_C35_enum_containers_refuted"],"false for enumerated value containers (counterexample); proved for peripherals, clusters, registers and fields of descriptions where no derived cluster lies inside of a base")
c("C36","proved",["C36_path_lookup","C36_candidates","C36_ambiguous_raises"],"on every graph state; a processed register outside alternate groups wins over other candidates, otherwise ambiguity raises")
c("C37","proved",["C37_children_copied","C37_applied"])
c("C38","proved",["C38_plain_expansion"])
c("C39","proved",["C39_cpu_defaults"])
c("C40","proved",["C40_read_write_containers","C40_container_usage"])
c("C41","proved",["C41_machine_sizes","C41_other_sizes_rejected"])
c("C42","partial",["C42_terminates_partial","C42_loop_check_never_fires"],"the loop check of the resolver is dead code; descriptions with derived clusters inside of clusters that may be bases are not covered")
c("C43","partial",["C43_finalization_errors_partial","C43_error_classes","C43_raw_sources","C43_key_error","C43_key_error_names","C43_sources_reached","C43_exact","C43_classes_exact","C43_only_ProcessException_refuted"],"false as stated: KeyError, AttributeError, ValueError, TypeError, ResolveException leave Process (counterexamples); proved instead: exactly thirteen statements are where an exception other than ProcessException and KeyError comes from (C43_exact, both directions), and exactly six classes leave Process (C43_classes_exact)")
c("C44","proved",["C44_defects_reported","C44_diagnostics_justified"],"warnings of dropped elements remain: stated in the hypotheses of the converse")
c("C45","proved",["C45_accepted_structure","C45_both_alternates_rejected","C45_no_blocks_rejected"])
c("C46","proved",["C46_expansion","C46_every_element","C46_children_among_siblings","C46_nothing_invented"])
c("C47","partial",["C46_expansion","C32_C35_derivation_applied_partial","C47_derived_clusters_refuted"],"false when the base contains derived clusters (counterexample); proved when no derived cluster lies inside of a base cluster")
c("C48","proved",["C48_latest","C48_verdict","C48_default","C48_packaged","C48_distinct_files"],"lxml's assertValid raising exactly for invalid documents is a hypothesis (assert_contract)")
c("C49","proved",["C49_resolved","C49_accepted_iff"],"rules: SpecAccept.ElementRules; without derivedFrom")
c("C50","proved",["C50_accepted_iff","C50_rejected_iff"],"rules: SpecAccept.Acceptable on the resolved device, before inheritance of register properties")
c("C51","proved",["C31_again","C31_settles","C31_identity_iff"],"shares its theorems with C31, whose full statement (always the same device) is false")
c("C52","proved",["C52_resolved","C52_accepted_iff"],"rules: SpecAccept.DerivedRules; C49 is its special case without derivedFrom")
c("C53","partial",["C53_order_of_siblings_partial","C53_order_derived_siblings_partial","C53_order_refuted"],"proved for descriptions in which at most peripherals are derived, by the plain name of one peripheral (rules as in C52), and for those in which elements at any level are derived from those beside them (rules as in C56); the claim is FALSE in general: a register derived from one with a derived field is refused with a raw AttributeError if it is written before its base, accepted after it")
c("C54","proved",["C54_file_to_file","C54_same_device","C54_read_trimmed","C54_empty_refuted"],"the condition on empty texts is needed (C54_empty_refuted): a dimIndex such as A,B,,C is accepted and makes an empty register name, after which the exported file cannot be parsed; a blank displayName is lost. Missing from the model: the bytes of the file (lxml's writer and reader are the relation RereadDoc)")
c("C55","partial",["C55_display_instances_partial","C55_derived_display_refuted"],"proved for the display name the resolver passes on; refuted for derived arrays: an array hands on the display name of its first instance, so every instance of an array derived from it without own displayName is shown as number 0 (C55_derived_display_refuted)")
c("C56","proved",["C56_resolved","C56_accepted_iff"],"rules: SpecAccept.SiblingRules; what the expansion is follows from C46. The restriction on the contents of bases is needed: derived elements inside of bases can lead to raw errors (C43, C53)")
c("C57","proved",["C57_valid_read","C57_scopes","C57_restrictions_needed"],"the schema is transcribed in SpecSchema.v; scope Readable states the restrictions, and C57_restrictions_needed shows valid documents outside of it that are rejected")
c("C58","proved",["C58_written","C58_rewritten","C58_survives","C58_restrictions_needed","C58_export_refuted","C58_export_values_refuted"],"the general claim for exported devices (all exports are valid) is refuted: C58_export_refuted gives necessary conditions, C58_export_values_refuted a concrete device; C58_nonvacuous, C58_export_nonvacuous are concrete positive cases")
c("C59","proved",["C59_enum_values","C59_enum_plus","C59_bit_ranges","C59_dim_index","C59_file_resolved","C59_file_resolved_derived"],"C59_nonvacuous and C59_texts are concrete cases")
c("C60","proved",["C60_same_outcome","C60_written_once","C60_numbered","C60_story","C60_file_on_return_refuted","C60_escaped_refuted"],"drawing, lxml, gzip and the page templates are parameters; C60_nonvacuous and C60_sample_rounds are concrete cases")
c("C61","proved",["C61_picture","C61_texts_distinct","C61_readable","C61_finished","C61_no_name_refuted"],"what Graphviz makes of the statements is a parameter; C61_nonvacuous is a concrete case")
c("C62","proved",["C62_warns_exactly","C62_never_spurious","C62_silent"],"the texts of the warnings are abstracted to their kind and the name of the element; how often the same warning is repeated is not stated")
c("C63","partial",["C63_parsed","C63_parents","C63_one_owner","C63_converted","C63_converted_parents","C63_constraint_refuted"],"refuted for converted models: the parent of a write constraint of a field or register is never set by process_parse_model_convert.py; everything else is proved; the references of an object are one list in the model")
c("C64","proved",["C64_joined","C64_resolver_graphs"],"SpecEdges.v: what contains what, and the graphs the resolver goes through")
if __name__=="__main__":
    json.dump({"claims":C},open(os.path.join(here,"../MANIFEST.json"),"w"),indent=1)
    print(len(C))
