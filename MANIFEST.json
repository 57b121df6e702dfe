{
 "claims": [
  {
   "property": "C01",
   "status": "proved",
   "theorems": [
    "C01_version_order"
   ],
   "note": ""
  },
  {
   "property": "C02",
   "status": "proved",
   "theorems": [
    "C02_version_strings"
   ],
   "note": ""
  },
  {
   "property": "C03",
   "status": "partial",
   "theorems": [
    "C03_every_version_nameable_refuted",
    "C03_every_version_nameable_partial"
   ],
   "note": "Refuted for numbers of 2^32 and more (ParseUint with 32 bits); proved for smaller ones."
  },
  {
   "property": "C04",
   "status": "proved",
   "theorems": [
    "C04_version_search"
   ],
   "note": ""
  },
  {
   "property": "C05",
   "status": "proved",
   "theorems": [
    "C05_schema_lookup",
    "C05_schema_or_panic"
   ],
   "note": ""
  },
  {
   "property": "C06",
   "status": "partial",
   "theorems": [
    "C06_strictly_increasing_refuted",
    "C06_non_decreasing_partial"
   ],
   "note": "Refuted: equal versions are accepted. Non-decreasing order is proved."
  },
  {
   "property": "C07",
   "status": "partial",
   "theorems": [
    "C07_consecutive_refuted"
   ],
   "note": "Refuted: neither the first version nor the steps are checked. Only non-decreasing order holds (C06)."
  },
  {
   "property": "C08",
   "status": "proved",
   "theorems": [
    "C08_compatibility_rule",
    "C08_error_kind"
   ],
   "note": ""
  },
  {
   "property": "C09",
   "status": "proved",
   "theorems": [
    "C09_old_data_stays_valid"
   ],
   "note": "Soundness of the compatibility check for the data at hand is a hypothesis; see C10 for the check itself."
  },
  {
   "property": "C10",
   "status": "partial",
   "theorems": [
    "C10_default_dropped_refuted",
    "C10_ambiguous_refuted",
    "C10_membership_partial",
    "C10_sequence_partial",
    "C10_completed_partial",
    "C10_valid_partial"
   ],
   "note": "Refuted: a default may be dropped or become ambiguous, so old data without the field no longer validates. Proved for complete data, and for all data when every filled field stays filled."
  },
  {
   "property": "C11",
   "status": "proved",
   "theorems": [
    "C11_neighbours"
   ],
   "note": ""
  },
  {
   "property": "C12",
   "status": "partial",
   "theorems": [
    "C12_walk_terminates_refuted",
    "C12_successor_partial",
    "C12_predecessor_partial",
    "C12_walk_partial"
   ],
   "note": "Refuted: duplicate versions make the walk endless, a first version other than 0.0 makes Predecessor panic. Exact behaviour of both, and of the walk, on every bound lineage is proved."
  },
  {
   "property": "C13",
   "status": "partial",
   "theorems": [
    "C13_latest_in_major_refuted",
    "C13_latest_in_major_partial"
   ],
   "note": "Refuted: LatestInMajor returns the first schema of the next major or panics. Exact behaviour proved."
  },
  {
   "property": "C14",
   "status": "proved",
   "theorems": [
    "C14_first_latest_all"
   ],
   "note": ""
  },
  {
   "property": "C15",
   "status": "proved",
   "theorems": [
    "C15_validate_any"
   ],
   "note": "Hypothesis: composing the validation message does not panic (see C38)."
  },
  {
   "property": "C16",
   "status": "partial",
   "theorems": [
    "C16_validate_any_total_refuted",
    "C16_exact_partial"
   ],
   "note": "Refuted for lineages with duplicate versions. Proved: what it does on every bound lineage, and so exactly when it does not end."
  },
  {
   "property": "C17",
   "status": "proved",
   "theorems": [
    "C17_go_lenses_exact"
   ],
   "note": ""
  },
  {
   "property": "C18",
   "status": "partial",
   "theorems": [
    "C18_reasons_refuted",
    "C18_reasons_partial"
   ],
   "note": "Refuted: the two explanations for forward lenses are swapped. Absence of panics and the exact explanation in every case are proved."
  },
  {
   "property": "C19",
   "status": "proved",
   "theorems": [
    "C19_go_translation"
   ],
   "note": "For mappers that return Instances of the lineage itself; others are the subject of C21."
  },
  {
   "property": "C20",
   "status": "proved",
   "theorems": [
    "C20_go_minor_unchanged"
   ],
   "note": ""
  },
  {
   "property": "C21",
   "status": "partial",
   "theorems": [
    "C21_go_result_valid_refuted",
    "C21_go_result_valid_partial"
   ],
   "note": "Refuted: only the version of a mapper result is compared. Holds when mappers return conforming Instances of the lineage."
  },
  {
   "property": "C22",
   "status": "proved",
   "theorems": [
    "C22_cue_lens_order"
   ],
   "note": ""
  },
  {
   "property": "C23",
   "status": "partial",
   "theorems": [
    "C23_cue_lens_completeness_refuted"
   ],
   "note": "Refuted: CUE lenses are neither checked for completeness nor for duplicates; only their order is (C22)."
  },
  {
   "property": "C24",
   "status": "proved",
   "theorems": [
    "C24_native_positions",
    "C24_counts"
   ],
   "note": "Accepting the lineage: lists shorter than 2^64, as any Go slice."
  },
  {
   "property": "C25",
   "status": "partial",
   "theorems": [
    "C25_native_positions_refuted",
    "C25_every_position",
    "C25_single_count_refuted"
   ],
   "note": "Refuted from four majors on, and for _counts with a single schema; C24 is the true restriction. C25_every_position: from major 3 on every position is too small, and a lineage with a major 3 is rejected if major 2 has fewer versions than major 0."
  },
  {
   "property": "C26",
   "status": "proved",
   "theorems": [
    "C26_cue_translation",
    "C26_lens_versions",
    "C26_stops_short",
    "C26_four_majors_fail"
   ],
   "note": "C26_stops_short: from majors 0-2 up into major 3 or more the lenses are applied only up to a schema before the target; C26_four_majors_fail is a case."
  },
  {
   "property": "C27",
   "status": "proved",
   "theorems": [
    "C27_cue_result_valid"
   ],
   "note": ""
  },
  {
   "property": "C28",
   "status": "partial",
   "theorems": [
    "C28_errors_refuted",
    "C28_errors_partial"
   ],
   "note": "Refuted for both kinds of lenses; exact marks for CUE lenses are proved."
  },
  {
   "property": "C29",
   "status": "partial",
   "theorems": [
    "C29_emitted_partial",
    "C29_lacunas_refuted",
    "C29_lacunas_partial",
    "C29_silent_partial"
   ],
   "note": "Refuted: a lens that emits a lacuna makes the whole translation fail with ErrInvalidLens, since the step selects a field the closed #Lacuna does not have; the lacunas returned are always none, and a translation that succeeds went through lenses that emitted none."
  },
  {
   "property": "C30",
   "status": "proved",
   "theorems": [
    "C30_translate_total",
    "C30_neighbours_total"
   ],
   "note": ""
  },
  {
   "property": "C31",
   "status": "proved",
   "theorems": [
    "C31_untyped_mux",
    "C31_spec_determines",
    "C31_result_at_target",
    "C31_needs_zero"
   ],
   "note": "C31_needs_zero shows that the hypothesis on 0.0 is needed."
  },
  {
   "property": "C32",
   "status": "proved",
   "theorems": [
    "C32_typed_mux",
    "C32_byte_mux",
    "C32_value_mux",
    "C32_typed_panics"
   ],
   "note": "C32_typed_panics shows that the hypothesis on lenses is needed."
  },
  {
   "property": "C33",
   "status": "partial",
   "theorems": [
    "C33_exact_partial",
    "C33_never_valid",
    "C33_refuted",
    "C33_conflict_refuted",
    "C33_panic_refuted",
    "C33_names_partial",
    "C33_body_partial",
    "C33_pattern_refuted",
    "C33_no_error",
    "C33_no_branch_partial"
   ],
   "note": "Refuted: Hydrate walks the #SchemaDef value and not the schema body, with arguments swapped in the recursion. C33_exact_partial says what it does to data without the labels version, schema, examples; C33_names_partial says what it does to any data that does not conflict with the definition; C33_body_partial says what doHydrate would do on a schema body of any depth, C33_pattern_refuted that patterns are then left out. Missing: disjunctions of structs or lists."
  },
  {
   "property": "C34",
   "status": "partial",
   "theorems": [
    "C34_exact_partial",
    "C34_refuted",
    "C34_changes_refuted",
    "C34_body_partial",
    "C34_body_exact_partial",
    "C34_no_error",
    "C34_prefix_refuted",
    "C34_optional_refuted"
   ],
   "note": "Refuted: Dehydrate walks the #SchemaDef value and not the schema body. C34_exact_partial: it is the identity on data without the labels version, schema, examples. C34_body_partial says what doDehydrate does on a schema body with scalar disjunctions and plain lists; outside of that it changes values (C34_prefix_refuted) or loses optional ones (C34_optional_refuted)."
  },
  {
   "property": "C35",
   "status": "proved",
   "theorems": [
    "C35_append_only",
    "C35_append_only_order"
   ],
   "note": ""
  },
  {
   "property": "C36",
   "status": "partial",
   "theorems": [
    "C36_published_refuted"
   ],
   "note": "Refuted: versions and joinSchema are not compared. C35 gives what is compared."
  },
  {
   "property": "C37",
   "status": "proved",
   "theorems": [
    "C37_failures_kept",
    "C37_foreign"
   ],
   "note": ""
  },
  {
   "property": "C38",
   "status": "partial",
   "theorems": [
    "C38_every_violation_refuted",
    "C38_no_panic_refuted",
    "C38_panics",
    "C38_every_violation_partial"
   ],
   "note": "Refuted: unrecognised errors are dropped and short error paths make composing the message panic. The recognised ones are all reported; panics are characterised exactly."
  },
  {
   "property": "C39",
   "status": "proved",
   "theorems": [
    "C39_names",
    "C39_ranges",
    "C39_shown_unique",
    "C39_idempotent"
   ],
   "note": ""
  },
  {
   "property": "C40",
   "status": "proved",
   "theorems": [
    "C40_parts",
    "C40_dense",
    "C40_output"
   ],
   "note": "For sequences of sizes that Go slices can have."
  },
  {
   "property": "C41",
   "status": "partial",
   "theorems": [
    "C41_no_dangling_refuted",
    "C41_no_dangling_partial"
   ],
   "note": "Refuted: an empty sequence makes the minor version wrap around. Exactly when lenses dangle is proved."
  },
  {
   "property": "C42",
   "status": "partial",
   "theorems": [
    "C42_writer_excludes_partial",
    "C42_balanced_partial",
    "C42_all_finish_partial",
    "C42_panic_leaks_refuted"
   ],
   "note": "Refuted for decodes that panic inside NewT, which keep the lock. Proved when the two sections without a deferred unlock do not panic."
  },
  {
   "property": "C43",
   "status": "partial",
   "theorems": [
    "C43_unguarded_calls_refuted",
    "C43_builders_refuted",
    "C43_guarded_calls_partial"
   ],
   "note": "Refuted for BindType, Value, Translate, Hydrate, Dehydrate, Examples, IsAppendOnly, the muxes and the generators, the last two also with one another; proved for goroutines that use only the other calls."
  },
  {
   "property": "C44",
   "status": "partial",
   "theorems": [
    "C44_unified_once_partial",
    "C44_conjuncts_kept",
    "C44_unified_once_refuted",
    "C44_no_panic_refuted",
    "C44_by_name_refuted"
   ],
   "note": "Refuted: several #Lineage conjuncts with one other are unified again, only #Lineage conjuncts panic, and foreign definitions of that name are taken for it. The exact condition and that no conjunct is lost are proved."
  },
  {
   "property": "C45",
   "status": "proved",
   "theorems": [
    "C45_leaves",
    "C45_omitted",
    "C45_meaning"
   ],
   "note": ""
  },
  {
   "property": "C46",
   "status": "partial",
   "theorems": [
    "C46_exact_partial",
    "C46_argument",
    "C46_ends",
    "C46_one_element_refuted",
    "C46_undocumented_refuted"
   ],
   "note": "Refuted: closed lists of one element are refused; number, null, nested pointers and maps are accepted against the documentation. Exact equivalence with the rules proved for plain schemas."
  },
  {
   "property": "C47",
   "status": "partial",
   "theorems": [
    "C47_partial",
    "C47_refuted"
   ],
   "note": "Refuted for defaults, maps, lists of lists and open structs. Proved for plain and tight schemas, for all data."
  },
  {
   "property": "C48",
   "status": "proved",
   "theorems": [
    "C48_has_prefix",
    "C48_replace",
    "C48_replace_back",
    "C48_paths_equivalence",
    "C48_last_selector"
   ],
   "note": ""
  },
  {
   "property": "C49",
   "status": "partial",
   "theorems": [
    "C49_prefix_absent_refuted",
    "C49_prefix_present_partial",
    "C49_trim_exact_partial"
   ],
   "note": "Refuted: any common beginning is stripped, also when the prefix is not there. Exact behaviour proved."
  },
  {
   "property": "C50",
   "status": "proved",
   "theorems": [
    "C50_sanitize"
   ],
   "note": ""
  },
  {
   "property": "C51",
   "status": "partial",
   "theorems": [
    "C51_conversion_partial",
    "C51_removed_partial",
    "C51_outcomes_partial",
    "C51_data_changed_refuted"
   ],
   "note": "Refuted: data inside an untyped schema that has a field named type is taken for a schema and loses fields. Exact output for every document is proved."
  },
  {
   "property": "C52",
   "status": "partial",
   "theorems": [
    "C52_outermost_partial",
    "C52_root_only_refuted"
   ],
   "note": "Refuted: $schema is also put on typed nodes nested in untyped components. Exactly the outermost typed nodes get it."
  },
  {
   "property": "C53",
   "status": "partial",
   "theorems": [
    "C53_one_selector_partial",
    "C53_any_depth_partial",
    "C53_value_partial",
    "C53_subpath_refuted"
   ],
   "note": "Refuted: paths of several selectors are checked selector by selector against the root. Proved for one selector and, exactly, for any depth."
  },
  {
   "property": "C54",
   "status": "proved",
   "theorems": [
    "C54_module_search",
    "C54_unique"
   ],
   "note": "The root directory itself is never looked at."
  },
  {
   "property": "C55",
   "status": "proved",
   "theorems": [
    "C55_package_selection",
    "C55_one_package"
   ],
   "note": "Hypothesis: binding a package does not panic (C65 says when it does)."
  },
  {
   "property": "C56",
   "status": "partial",
   "theorems": [
    "C56_validate_any_silent_refuted",
    "C56_fill_all_schemas_refuted",
    "C56_quiet_refuted",
    "C56_version_partial",
    "C56_loaded_partial",
    "C56_validate_any_partial",
    "C56_one_schema_partial",
    "C56_fill_partial",
    "C56_process_partial",
    "C56_no_lineage_partial"
   ],
   "note": "Refuted: the schema is never nil, so validate-any prints an error and hydrate and dehydrate use only the latest schema; -q is not read. Exact behaviour of all commands is proved."
  },
  {
   "property": "C57",
   "status": "proved",
   "theorems": [
    "C57_translate",
    "C57_target_required"
   ],
   "note": "For strictly increasing versions and data whose rejection can be reported; the result must also exist, have no error and be concrete, as the code checks."
  },
  {
   "property": "C58",
   "status": "proved",
   "theorems": [
    "C58_input_format",
    "C58_unreadable",
    "C58_messages"
   ],
   "note": ""
  },
  {
   "property": "C59",
   "status": "proved",
   "theorems": [
    "C59_own_schema",
    "C59_validate_typed"
   ],
   "note": "Schema identity is pointer identity: lineage identity and index."
  },
  {
   "property": "C60",
   "status": "proved",
   "theorems": [
    "C60_declared_once",
    "C60_convergent",
    "C60_plain",
    "C60_exported",
    "C60_undeclared",
    "C60_settings"
   ],
   "note": ""
  },
  {
   "property": "C61",
   "status": "partial",
   "theorems": [
    "C61_references_refuted",
    "C61_collision_refuted",
    "C61_renamed_partial",
    "C61_resolves_partial",
    "C61_panics_partial",
    "C61_exact_partial"
   ],
   "note": "Refuted: slices of maps, maps to pointers, types declared as another type and constants keep the old name, and two names can become one. Proved for the other shapes; for files of any shape C61_exact_partial says which names change, and panics are characterised exactly."
  },
  {
   "property": "C62",
   "status": "proved",
   "theorems": [
    "C62_exact",
    "C62_no_pointer_left",
    "C62_only_double_pointers_left",
    "C62_idempotent"
   ],
   "note": ""
  },
  {
   "property": "C63",
   "status": "proved",
   "theorems": [
    "C63_bind_options"
   ],
   "note": ""
  },
  {
   "property": "C64",
   "status": "proved",
   "theorems": [
    "C64_prefix",
    "C64_overlay_files",
    "C64_overlay_error",
    "C64_relative_prefix",
    "C64_nil_overlay"
   ],
   "note": ""
  },
  {
   "property": "C65",
   "status": "proved",
   "theorems": [
    "C65_bind_classified"
   ],
   "note": ""
  },
  {
   "property": "C66",
   "status": "partial",
   "theorems": [
    "C66_references_refuted",
    "C66_exact_partial",
    "C66_references_partial"
   ],
   "note": "Refuted: chains of selectors such as from.a.b are left alone. Proved for every body: nothing but references changes, and a name survives exactly when it is bare or below a selector applied to something that is not an identifier; for bodies whose selectors are applied to identifiers none survives."
  },
  {
   "property": "C67",
   "status": "partial",
   "theorems": [
    "C67_same_data_partial",
    "C67_combinators_refuted"
   ],
   "note": "Refuted for combinators beside a type. Proved for schemas whose combinators occur in untyped nodes."
  },
  {
   "property": "C68",
   "status": "proved",
   "theorems": [
    "C68_single",
    "C68_group_noop",
    "C68_group_document",
    "C68_split_document"
   ],
   "note": ""
  },
  {
   "property": "C69",
   "status": "partial",
   "theorems": [
    "C69_names_partial",
    "C69_root_name",
    "C69_inlined",
    "C69_unique_names_refuted",
    "C69_config_refuted"
   ],
   "note": "Refuted: a definition named like the schema collides with it, and the Config is modified so that its reuse changes names. The exact names are proved."
  },
  {
   "property": "C70",
   "status": "partial",
   "theorems": [
    "C70_explicit_format_refuted",
    "C70_stdin_partial",
    "C70_explicit_format_partial"
   ],
   "note": "Refuted: with an explicit format stdin is always refused. Proved for files with a matching extension."
  },
  {
   "property": "C71",
   "status": "proved",
   "theorems": [
    "C71_loader_directory",
    "C71_loader_file",
    "C71_relative"
   ],
   "note": ""
  },
  {
   "property": "C72",
   "status": "partial",
   "theorems": [
    "C72_neighbour_lost_refuted",
    "C72_references_refuted",
    "C72_declarations_partial",
    "C72_exact_partial",
    "C72_any_partial",
    "C72_reached_partial",
    "C72_functions_partial"
   ],
   "note": "Refuted: a union that is a nameless member of a union takes the declaration after it along or panics, and some references stay. Proved when no declaration goes for two reasons; C72_exact_partial gives the result for every file, with the declarations that are taken along and the panics, and C72_reached_partial which references become any in types of any shape."
  },
  {
   "property": "C73",
   "status": "partial",
   "theorems": [
    "C73_added_refuted",
    "C73_exact_partial",
    "C73_in_step_partial",
    "C73_failures_partial"
   ],
   "note": "Refuted: imports added by an applier are blamed on goimports because the Imports list of the parsed file is compared. Exact behaviour proved, and the claim when the list is kept in step."
  },
  {
   "property": "C74",
   "status": "partial",
   "theorems": [
    "C74_lower_case_refuted",
    "C74_reuse_refuted",
    "C74_package_partial"
   ],
   "note": "Refuted: the name is not put in lower case and is stored in the configuration of the caller. Exact behaviour proved."
  },
  {
   "property": "C75",
   "status": "partial",
   "theorems": [
    "C75_flat_partial",
    "C75_nested_partial",
    "C75_faults",
    "C75_refuted"
   ],
   "note": "Refuted: Go-only fields of nested structs are reported under a bare name and hide other errors. Proved for every plain schema and documented Go type, at any depth: entries are faults with the right messages, every fault has an entry where it is reported, and the report is exactly the set of faults (paths and messages) when no nested struct has Go-only fields."
  },
  {
   "property": "C76",
   "status": "proved",
   "theorems": [
    "C76_validate_exact",
    "C76_declared"
   ],
   "note": ""
  },
  {
   "property": "C77",
   "status": "proved",
   "theorems": [
    "C77_old_data_valid"
   ],
   "note": ""
  },
  {
   "property": "C78",
   "status": "proved",
   "theorems": [
    "C78_forward_keeps_data"
   ],
   "note": ""
  },
  {
   "property": "C79",
   "status": "partial",
   "theorems": [
    "C79_forward_refuted",
    "C79_forward_complete_partial"
   ],
   "note": "Refuted for data that relies on a default a later minor version dropped. Proved for complete data."
  },
  {
   "property": "C80",
   "status": "proved",
   "theorems": [
    "C80_module_name",
    "C80_not_a_module",
    "C80_loads"
   ],
   "note": ""
  },
  {
   "property": "C81",
   "status": "proved",
   "theorems": [
    "C81_overlay",
    "C81_overlay_thema",
    "C81_unreadable"
   ],
   "note": ""
  },
  {
   "property": "C82",
   "status": "partial",
   "theorems": [
    "C82_dir",
    "C82_root",
    "C82_package_option",
    "C82_root_package_refuted"
   ],
   "note": "Refuted for ./, which loads the root directory with package name \".\". Proved for plain directories, the empty string, \".\" and Package options."
  },
  {
   "property": "C83",
   "status": "partial",
   "theorems": [
    "C83_present",
    "C83_added",
    "C83_usable",
    "C83_no_op_refuted",
    "C83_name_refuted"
   ],
   "note": "Refuted: a cue.mod directory without module.cue is changed, and names with backslashes or quotes do not read back. The rest is proved."
  },
  {
   "property": "C84",
   "status": "partial",
   "theorems": [
    "C84_document_partial",
    "C84_encoding_error",
    "C84_generation_error",
    "C84_percent_refuted",
    "C84_format_refuted"
   ],
   "note": "Refuted for documents that contain a percent sign (the text is used as a format string; proved to be the only exception) and for unknown formats (exit status 0 without document). The rest is proved."
  },
  {
   "property": "C85",
   "status": "partial",
   "theorems": [
    "C85_known_flags",
    "C85_flag_given",
    "C85_flag_default_partial",
    "C85_help",
    "C85_format_default_refuted",
    "C85_stdout_refuted",
    "C85_bindings_stdout"
   ],
   "note": "Refuted: gen openapi uses json although its help says yaml, and gen gotypes --stdout writes the file. Proved for all other flags."
  },
  {
   "property": "C86",
   "status": "partial",
   "theorems": [
    "C86_types_file_partial",
    "C86_bindings_file_partial",
    "C86_types_all_or_nothing",
    "C86_bindings_all_or_nothing",
    "C86_placement_refuted"
   ],
   "note": "Refuted for names with slashes, which place the file elsewhere (a name is any CUE string). Proved for all other names; the header is exact unless the file name has a percent sign. Lower-casing is modelled for ASCII."
  },
  {
   "property": "C87",
   "status": "proved",
   "theorems": [
    "C87_root",
    "C87_same_module"
   ],
   "note": ""
  },
  {
   "property": "C88",
   "status": "partial",
   "theorems": [
    "C88_config_cue",
    "C88_config_go",
    "C88_config_none",
    "C88_config_no_func",
    "C88_package_partial",
    "C88_package_refuted"
   ],
   "note": "Refuted for lineages in a Go module without CUE module: the package asked for is named like the Go module. Proved in CUE modules whose names need no quoting."
  },
  {
   "property": "C89",
   "status": "partial",
   "theorems": [
    "C89_new_lineage",
    "C89_empty",
    "C89_argument_refuted",
    "C89_names_refuted"
   ],
   "note": "Proved for names without quotes, backslashes and line breaks. Refuted for others (an error, another name, or additional fields) and for the help text, which says that the name is an argument."
  },
  {
   "property": "C90",
   "status": "partial",
   "theorems": [
    "C90_document",
    "C90_imports",
    "C90_input",
    "C90_json_error_refuted",
    "C90_flags_refuted",
    "C90_imports_refuted"
   ],
   "note": "Refuted: imports of the schema are dropped (proved: the file is resolved iff only thema is referred to); the name is not required, the package does not default to it and --no-package is ignored; an unreadable JSON document yields neither file nor error. Conversion itself is a parameter."
  },
  {
   "property": "C91",
   "status": "partial",
   "theorems": [
    "C91_find_seqs",
    "C91_insert_major",
    "C91_insert_minor",
    "C91_insert_errors",
    "C91_insert_no_seqs",
    "C91_append_minor",
    "C91_append_major",
    "C91_to_expr",
    "C91_to_expr_plain",
    "C91_version_refuted",
    "C91_append_refuted",
    "C91_append_no_seqs",
    "C91_flawed"
   ],
   "note": "Proved for lineages in the old form. Refuted: the next major number is accepted with every minor number, and appending always fails on lineages in the current form, which have no seqs. The functions insertSchemaNodeAs and appendlin are unexported and unused."
  },
  {
   "property": "C92",
   "status": "partial",
   "theorems": [
    "C92_errors",
    "C92_target",
    "C92_parts_errors",
    "C92_edit_partial",
    "C92_fields",
    "C92_todo",
    "C92_fix_partial",
    "C92_fix_writes",
    "C92_other_fields_refuted",
    "C92_cyclic_refuted",
    "C92_nothing_refuted",
    "C92_elsewhere_refuted"
   ],
   "note": "Proved if exactly one field below the literal is labelled seqs. Refuted otherwise: other fields of that name are replaced too; in a schema they make the tree cyclic; if seqs comes from an embedded value nothing is rewritten and no error is given; a lineage in another package or in several files panics."
  },
  {
   "property": "C93",
   "status": "partial",
   "theorems": [
    "C93_identifier_refuted",
    "C93_exported_partial",
    "C93_letters_partial",
    "C93_exact_partial",
    "C93_readable_partial",
    "C93_sanitize_partial",
    "C93_sanitized_partial"
   ],
   "note": "Refuted for names that begin with a separator or another dropped character (_1, /a) and names of characters without case. Proved for ASCII names that begin with a letter, a digit or a spelled operator; the exact Go name of every ASCII name is given."
  },
  {
   "property": "C94",
   "status": "partial",
   "theorems": [
    "C94_distinct_refuted",
    "C94_plain_partial",
    "C94_camel_partial",
    "C94_paths_partial",
    "C94_paths_refuted"
   ],
   "note": "Refuted: foo_bar and fooBar, name and Name. Proved for names of letters and digits that start in lower case, and for the paths of such names that types of nested schemas are named by; without underscores (fixUnderscoreInTypeName) paths meet."
  },
  {
   "property": "C95",
   "status": "partial",
   "theorems": [
    "C95_constants_refuted",
    "C95_known_partial",
    "C95_total_partial",
    "C95_all_partial",
    "C95_exact_partial"
   ],
   "note": "Refuted: of a, A, a1 the value A gets no constant. Proved when no Go name is another one followed by digits, with the exact names; for every enum, the constant of a name stands for the last value that gets the name (C95_exact_partial)."
  },
  {
   "property": "C96",
   "status": "proved",
   "theorems": [
    "C96_commented",
    "C96_text",
    "C96_blank",
    "C96_deprecated"
   ],
   "note": ""
  },
  {
   "property": "C97",
   "status": "proved",
   "theorems": [
    "C97_referred",
    "C97_refused",
    "C97_whole",
    "C97_type",
    "C97_fields",
    "C97_order",
    "C97_file",
    "C97_unknown",
    "C97_format",
    "C97_references",
    "C97_references_total"
   ],
   "note": "With the exact text; allOf is C98. References are characterised exactly."
  },
  {
   "property": "C98",
   "status": "partial",
   "theorems": [
    "C98_leaves_partial",
    "C98_leaves_unique",
    "C98_all_parts_refuted",
    "C98_merged_partial",
    "C98_embedded_partial",
    "C98_part_partial",
    "C98_agree_partial"
   ],
   "note": "Refuted: a composition of references without properties of its own panics, references to names with an underscore are ignored, of a part that is a composition its own properties are lost, and no anyOf is kept. Proved when the first part is inline and no part is a composition: all properties, the last of a name winning, and all elements of oneOf; parts that disagree are refused. Of compositions of compositions, whose own properties are lost, all properties of the innermost parts are kept. When all parts are references each becomes an embedded field."
  },
  {
   "property": "C99",
   "status": "partial",
   "theorems": [
    "C99_written_partial",
    "C99_file_refused_partial",
    "C99_declared_refuted",
    "C99_declared_partial",
    "C99_unique_partial",
    "C99_refused_partial"
   ],
   "note": "Refuted: what the properties of objects inside additional properties and inside the elements of unions need is not declared, nor the name of an enum that is an element of a union. Proved for documents without such needs whose references are to components; always, no name is declared twice, and the error for clashes is exact."
  },
  {
   "property": "C100",
   "status": "partial",
   "theorems": [
    "C100_constants_refuted",
    "C100_file_partial",
    "C100_once_partial",
    "C100_exact_partial",
    "C100_distinct_partial",
    "C100_literal_partial"
   ],
   "note": "Refuted: two types can define the same constant, a constant can have the name of a type, and quotes and backslashes in values are not escaped. Proved: the exact text, one constant for each value, different names within a type, and the value of literals without such characters."
  },
  {
   "property": "C101",
   "status": "partial",
   "theorems": [
    "C101_extra_refuted",
    "C101_letters_refuted",
    "C101_number_refuted",
    "C101_empty_refuted",
    "C101_null_refuted",
    "C101_name_refuted",
    "C101_integer_refuted",
    "C101_no_pointers_refuted",
    "C101_unchanged_partial",
    "C101_valid_partial",
    "C101_pass"
   ],
   "note": "Refuted: members that only additionalProperties allows are dropped, numbers without a format are rounded to float32, empty optional lists vanish, optional nullable properties become null, null in lists becomes a value, names with a comma and the name - are not read, integers of 64 bits and more are refused, and NoOptionalPointers drops optional false, 0 and empty values. Proved: all valid data without these comes back unchanged, for documents without allOf whose declarations are complete; data of unions is not covered."
  },
  {
   "property": "C102",
   "status": "partial",
   "theorems": [
    "C102_description_refuted",
    "C102_name_kept",
    "C102_panics",
    "C102_todo",
    "C102_words_refuted",
    "C102_description_partial",
    "C102_file_partial",
    "C102_lines",
    "C102_functions"
   ],
   "note": "Refuted: the name stays before descriptions that begin in lower case or are one word, a description that begins with a space panics, text before TODO is lost, and so are words when the name does not begin with A-Z. Proved: each case exactly; descriptions that begin with another word become the comment, and only first lines change."
  },
  {
   "property": "C103",
   "status": "partial",
   "theorems": [
    "C103_go",
    "C103_cue_error_refuted",
    "C103_cue_data_refuted",
    "C103_cue_partial"
   ],
   "note": "Proved for Go lenses, errors included. Refuted for CUE lenses: data at the stop that is incomplete is an error there only, and defaults filled in at the stop change the result. Proved for CUE lenses: a failing lens fails both ways, and a stop whose data is what the lenses made changes nothing."
  },
  {
   "property": "C104",
   "status": "partial",
   "theorems": [
    "C104_bytes",
    "C104_untyped",
    "C104_go_refuted",
    "C104_go_partial"
   ],
   "note": "Proved with CUE lenses. Refuted with Go lenses: a mapper that answers with an instance of another lineage makes the mux refuse its own output. Proved with Go lenses whose results are valid instances of the own schemas."
  },
  {
   "property": "C105",
   "status": "partial",
   "theorems": [
    "C105_file",
    "C105_group",
    "C105_default_name",
    "C105_identifier_refuted",
    "C105_identifier_partial",
    "C105_reuse_refuted",
    "C105_left",
    "C105_reuse_partial"
   ],
   "note": "Proved: what the file holds, groups, the default name of one-word names, what a call leaves in the configuration. Refuted: the default name is no identifier when the lineage name is none; a second lineage gets the root name of the first. Proved: the default is an identifier exactly when the name is, and reuse is harmless for groups, a given RootName, and equal defaults."
  },
  {
   "property": "C106",
   "status": "partial",
   "theorems": [
    "C106_deep_refuted",
    "C106_alias_refuted",
    "C106_enum_refuted",
    "C106_neighbour_refuted",
    "C106_mixed_refuted",
    "C106_file_partial",
    "C106_left_partial",
    "C106_complete_partial",
    "C106_data_partial"
   ],
   "note": "Proved for documents whose unions have only alternatives, which are not unions, have no description and are no inline enums, and that are not in maps in lists or structs in maps: the file left is exactly that of the document with every union replaced by a schema that allows anything, it is complete, and data passes as in C101. For any document: before the passes each type is declared once, and methods are those of declared types with the receivers their bodies need. Refuted outside of that: names that dangle (maps in lists, structs in maps, aliases of unions, enum alternatives), a neighbouring declaration removed (nested unions), and a union field without methods (objects with properties and alternatives)."
  },
  {
   "property": "C107",
   "status": "proved",
   "theorems": [
    "C107_join_governs",
    "C107_join_exact"
   ],
   "note": "A written ellipsis in a struct is not in the fragment."
  },
  {
   "property": "C108",
   "status": "proved",
   "theorems": [
    "C108_first",
    "C108_before",
    "C108_search"
   ],
   "note": ""
  },
  {
   "property": "C109",
   "status": "partial",
   "theorems": [
    "C109_append_only_bodies_partial",
    "C109_instances_refuted",
    "C109_never_changes_refuted"
   ],
   "note": "Refuted: a schema need not be an instance of the joinSchema (it is made one by unification), and IsAppendOnly compares only the schemas as written, whatever the joinSchemas: changing the joinSchema can change which data is valid."
  },
  {
   "property": "C110",
   "status": "partial",
   "theorems": [
    "C110_agree_refuted",
    "C110_agree_partial",
    "C110_data_refuted"
   ],
   "note": "Refuted: data that lacks required fields counts as found in CUE and not in Go, and the inst that #SearchAndValidate returns is the schema, its reference to the data being shadowed by the field itself. Proved: both find the same version exactly when the schema found in CUE wants nothing the data lacks; see also C108."
  },
  {
   "property": "C111",
   "status": "partial",
   "theorems": [
    "C111_guarantee_refuted",
    "C111_go_partial",
    "C111_cue_partial",
    "C111_fragment_partial"
   ],
   "note": "Refuted as documented: data relying on a default does not reach the next minor version, and data of majors 0-2 does not reach a fourth major. Proved: with Go lenses, checks on and sound, from lenses that turn valid instances into valid instances (translation, and the mux on undecoded input); with CUE lenses between majors 0-2, for anything the steps keep up, and in the CUE fragment for complete data when each lens turns complete data of its source into complete data of its target and emits no lacuna on it."
  },
  {
   "property": "C112",
   "status": "proved",
   "theorems": [
    "C112_lookup",
    "C112_validate_any",
    "C112_cue",
    "C112_go"
   ],
   "note": "Published schemas are taken to have the same values in both lineages. CUE lenses: dense lineages with exactly the lenses that are needed; Go lenses: the same functions, which do not look at the lineage they are called for."
  },
  {
   "property": "C113",
   "status": "partial",
   "theorems": [
    "C113_mux_refuted",
    "C113_cue_partial",
    "C113_go_partial"
   ],
   "note": "Refuted: when a new schema also accepts the data, the data is taken to be of that version, and its lenses can give another answer; this with lenses that translate all valid data. Proved: the answer stays when the schema of the mux accepts the data itself or no new schema accepts it."
  },
  {
   "property": "C114",
   "status": "partial",
   "theorems": [
    "C114_compatible_partial",
    "C114_breaking_partial",
    "C114_kinds_partial",
    "C114_default_refuted",
    "C114_default_partial",
    "C114_default_removed_refuted"
   ],
   "note": "Refuted: an added field with a default is rejected as a minor version and accepted as a new major, although all old data stays valid; removing a default is accepted as a minor version. The rest is proved on the fragment, for closed structs. The guide writes schemas in `seqs`, which the pinned code no longer has; its sequences are read as majors."
  },
  {
   "property": "C115",
   "status": "partial",
   "theorems": [
    "C115_order_free_refuted",
    "C115_schemas_partial",
    "C115_cue_lenses_partial",
    "C115_go_lenses_partial"
   ],
   "note": "Refuted for schemas and CUE lenses: another order does not bind. Proved: of all orders of the same declarations at most one is accepted (up to entries with equal versions), and Go lenses may come in any order."
  },
  {
   "property": "C116",
   "status": "proved",
   "theorems": [
    "C116_first_fault",
    "C116_decided",
    "C116_candidate",
    "C116_redeclare"
   ],
   "note": "The texts CUE appends (the details of an incompatibility, the printed lens) are left out; a path with characters that %q escapes is printed as it is."
  },
  {
   "property": "C117",
   "status": "partial",
   "theorems": [
    "C117_hint_refuted",
    "C117_never_partial"
   ],
   "note": "Refuted: the command looks for \"instance root\" in the text of the error, which no error of BindLineage contains any more; proved that the hint is never given."
  },
  {
   "property": "C118",
   "status": "partial",
   "theorems": [
    "C118_unused_refuted",
    "C118_dangling_refuted",
    "C118_ends",
    "C118_exact_partial",
    "C118_used_partial",
    "C118_acyclic_partial"
   ],
   "note": "Refuted twice: an unused schema that refers to itself stays, and a schema goes that only the content of a header, or the mapping of a discriminator, refers to. Proved: pruning ends; exactly the largest set of components that support one another from the paths stays, with their definitions as they were; references at the places the walk visits keep their targets; without circles exactly what is used stays; pruning again changes nothing. Not modelled: the headers of the encoding of a media type, extensions."
  },
  {
   "property": "C119",
   "status": "partial",
   "theorems": [
    "C119_translates_refuted",
    "C119_bind_partial",
    "C119_rename_partial",
    "C119_narrowing_partial",
    "C119_defaultchange_partial",
    "C119_expand_partial",
    "C119_disjunct_partial"
   ],
   "note": "Refuted: in narrowing a string other than true and false makes the lens emit a lacuna, which is an error; in defaultchange the lens names input.anion, which does not exist, so that nothing translates to 1.0; in expand the value baz does not translate back to 0.2, where the comment says that the default is selected; in disjunct the body of the lens is commented out. Proved: they all bind; exactly which data of rename, narrowing, defaultchange, expand and disjunct translates, and to what; in disjunct valid data without the number of its branch does not translate to 0.1, and nothing translates back. single has one schema."
  },
  {
   "property": "C120",
   "status": "partial",
   "theorems": [
    "C120_at_once_refuted",
    "C120_any_two_partial",
    "C120_same_time_partial",
    "C120_in_turn_partial",
    "C120_suffix_partial",
    "C120_references_partial"
   ],
   "note": "Refuted: two goroutines that generate can end the program, as each call assigns to the map TemplateFunctions. Proved: whenever the program goes on, every call returns what its own document and options give; calls in turn complete, independently of each other but for the suffix of response types, which thema does not set. The assignments of whole structs are single steps in the model."
  },
  {
   "property": "C121",
   "status": "partial",
   "theorems": [
    "C121_imports_refuted",
    "C121_order_refuted",
    "C121_exact_partial",
    "C121_aliases_partial"
   ],
   "note": "Refuted: schemas of additional properties and of allOf, anyOf and oneOf are not looked at, so that the package of their Go type is not imported; and an extension with two fields that differ in case is read in either way. Proved: the imports are exactly those that schemas reached through properties and items ask for, or an error; packages of the mapping and their names correspond one to one, independently of the order. Documents that thema makes have neither of them."
  },
  {
   "property": "C122",
   "status": "partial",
   "theorems": [
    "C122_order_refuted",
    "C122_text_partial"
   ],
   "note": "Refuted: the errors are kept in a map, so that the order of the lines varies. Proved: in every order there is one line for each error and no other, which begins with the path, and lines about different rules differ."
  },
  {
   "property": "C123",
   "status": "partial",
   "theorems": [
    "C123_round_partial",
    "C123_exact",
    "C123_one_way",
    "C123_limits",
    "C123_any_map_refuted",
    "C123_quote_refuted"
   ],
   "note": "Proved for every map with at least one entry and no quotes in keys and values; for every other input the exact result. Refuted: the empty map cannot be given, nor a key or value with a quote at an end."
  },
  {
   "property": "C124",
   "status": "proved",
   "theorems": [
    "C124_round",
    "C124_exact"
   ],
   "note": "The spaces are those of ASCII; the model of strings.TrimSpace leaves other Unicode spaces alone."
  },
  {
   "property": "C125",
   "status": "partial",
   "theorems": [
    "C125_one_way",
    "C125_exact",
    "C125_built",
    "C125_sorted_partial",
    "C125_sort_exact",
    "C125_repeated_refuted",
    "C125_path_only",
    "C125_override_refuted"
   ],
   "note": "Proved for every path that names no parameter twice; for every other input the exact result and the text of the errors. Refuted: a path that names one twice drops a declared parameter without an error; and an operation that declares a parameter of its path again is refused, although the comment speaks of a union."
  },
  {
   "property": "C126",
   "status": "partial",
   "theorems": [
    "C126_round_partial",
    "C126_exact",
    "C126_only",
    "C126_space_refuted"
   ],
   "note": "Proved for every path without spaces, and exactly for all others. Refuted: a space becomes a plus sign, which in a path stands for itself."
  },
  {
   "property": "C127",
   "status": "partial",
   "theorems": [
    "C127_once",
    "C127_same",
    "C127_good",
    "C127_progress",
    "C127_ends",
    "C127_settled",
    "C127_failed_once",
    "C127_failed_why",
    "C127_invalid_refuted",
    "C127_overlay_refuted"
   ],
   "note": "Proved but for the last part, which is refuted: rtOnce counts a panic as done, so that after the panic of the first call the next one makes a Runtime of the instance that was found invalid, or panics because there is none."
  },
  {
   "property": "C128",
   "status": "partial",
   "theorems": [
    "C128_exact",
    "C128_each",
    "C128_read_partial",
    "C128_order",
    "C128_plain",
    "C128_read_refuted",
    "C128_dropped_refuted"
   ],
   "note": "Refuted: a name or value with a quote is not escaped, so that Go reads another one, and one extra tag that is not a text makes all of them disappear without an error. Proved: the exact text of every field, independence of the order of maps, and reading back if keys are possible ones and values are printable ASCII without quotes and backslashes."
  },
  {
   "property": "C129",
   "status": "partial",
   "theorems": [
    "C129_exact",
    "C129_again",
    "C129_order",
    "C129_parameters_refuted",
    "C129_left_partial",
    "C129_total"
   ],
   "note": "Refuted for components: those that parameters of a path refer to stay when all its operations go. Proved: which operations stay, whatever the order of the methods, that filtering again changes nothing, and which components stay, if they do not refer to one another in circles."
  },
  {
   "property": "C130",
   "status": "proved",
   "theorems": [
    "C130_same",
    "C130_pieces",
    "C130_base64",
    "C130_error"
   ],
   "note": "Unpacking is supposed to undo packing, as compress/gzip promises."
  },
  {
   "property": "C131",
   "status": "partial",
   "theorems": [
    "C131_exact",
    "C131_errors",
    "C131_total",
    "C131_named",
    "C131_once_refuted",
    "C131_security_refuted"
   ],
   "note": "Refuted: different operations can get the same name, with and without identifiers, and definitions do not tell either of two security schemes from both. Proved: exactly which definitions there are and what is in them, the cause and text of every error, that names in ASCII are exported Go names, and that such a name is kept."
  },
  {
   "property": "C132",
   "status": "partial",
   "theorems": [
    "C132_exact",
    "C132_notes",
    "C132_fields",
    "C132_alike_refuted",
    "C132_vendor_refuted",
    "C132_errors"
   ],
   "note": "Refuted: of two JSON contents of one response (such as application/json and application/problem+json) the first is read as the type of the second and their fields collide, and contents that are JSON by suffix only are not read. Proved: for every status and header which case is taken, namely the first word in the header, then the closest name, then the last content; the text of the switch; that every case fills a declared field; distinct fields where no two contents are read alike; the cause and text of every error."
  },
  {
   "property": "C133",
   "status": "partial",
   "theorems": [
    "C133_bodies",
    "C133_apart",
    "C133_request_types",
    "C133_apart_refuted",
    "C133_schema_refuted",
    "C133_body_errors",
    "C133_none",
    "C133_responses",
    "C133_refs_once",
    "C133_response_errors"
   ],
   "note": "Refuted: two kinds of JSON in one body have the same type and the same function, and a tagged content without a schema, which OpenAPI allows, is a panic. Proved: exactly which definitions there are, their order, tags, types, defaults and encodings; that contents of different tags are apart; that each type of a response is taken by the first status that refers to it and by no other; that there is no other panic, and the cause and text of every error."
  },
  {
   "property": "C134",
   "status": "partial",
   "theorems": [
    "C134_style",
    "C134_fields",
    "C134_unknown",
    "C134_types",
    "C134_names",
    "C134_names_refuted",
    "C134_distinct_refuted",
    "C134_variable",
    "C134_variable_refuted",
    "C134_kinds"
   ],
   "note": "Refuted: parameters of one name in two places make two fields of this name; with x-go-name the field has the given name and the code uses its camel case; type and p_type have the same variable; a name such as _ panics. Proved: the exact fields, types, styles and defaults, when it panics, and that variables are Go variables for names of letters and digits."
  },
  {
   "property": "C135",
   "status": "partial",
   "theorems": [
    "C135_collides",
    "C135_added",
    "C135_merged",
    "C135_compatible",
    "C135_union_refuted",
    "C135_types_refuted"
   ],
   "note": "Refuted: a property that two inline parts have is there twice, so the struct has the field twice; the types that additional properties of a part need are dropped. Proved: exactly which properties collide, that exactly compatible parts are merged, and the lines and properties of the result."
  },
  {
   "property": "C136",
   "status": "partial",
   "theorems": [
    "C136_accepted",
    "C136_refused",
    "C136_one_server_refuted",
    "C136_defaults"
   ],
   "note": "Refuted: the Gorilla server is not counted, so it is accepted beside another one. Proved: exactly what is accepted, both errors, and the defaults."
  },
  {
   "property": "C137",
   "status": "proved",
   "theorems": [
    "C137_operation",
    "C137_calls",
    "C137_stay",
    "C137_global"
   ],
   "note": "Slices start at the start of their arrays. The slice of global parameters with those of one operation is only right until the next operation is described, and the code reads it before; shown by an example."
  },
  {
   "property": "C138",
   "status": "proved",
   "theorems": [
    "C138_summary",
    "C138_comment",
    "C138_empty"
   ],
   "note": "Exact for all summaries; other characters that end lines for a reader, such as a carriage return, stay within a line."
  },
  {
   "property": "C139",
   "status": "partial",
   "theorems": [
    "C139_declared",
    "C139_used",
    "C139_keys",
    "C139_order",
    "C139_sanitized",
    "C139_apart_partial",
    "C139_twice_refuted",
    "C139_shared_refuted"
   ],
   "note": "Declaration, use, keys and order hold for all names. That schemes have constants of their own is refuted: apiKey and ApiKey declare ApiKeyScopes twice, api-key and api_key share one constant; it is proved for names of letters and digits that start with an upper case letter. The text around the constants is not modelled."
  }
 ]
}