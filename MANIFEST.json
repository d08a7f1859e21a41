{
 "claims": [
  {
   "property": "C01",
   "status": "proved",
   "theorems": [
    "C01_round_trip",
    "C01_round_trip_file"
   ],
   "note": "Optional[Union], other Literals and Unions of scalars are property C53."
  },
  {
   "property": "C02",
   "status": "partial",
   "theorems": [
    "C02_enum_round_trip_iff",
    "C02_enum_refuted",
    "C02_enum_swap_refuted"
   ],
   "note": "Exact characterisation (iff); the unconditional claim is false of the code: members whose name is not found as a value cannot be loaded or load as another member."
  },
  {
   "property": "C03",
   "status": "proved",
   "theorems": [
    "C03_elide_round_trip"
   ],
   "note": ""
  },
  {
   "property": "C04",
   "status": "proved",
   "theorems": [
    "C04_default_construction"
   ],
   "note": ""
  },
  {
   "property": "C05",
   "status": "partial",
   "theorems": [
    "C05_loads_meaning",
    "C05_given_and_default",
    "C05_order_independent_partial",
    "C05_set_order_independent",
    "C05_schedule_order_refuted"
   ],
   "note": "Everything proved except order independence of files that set schedules, which is false (refuted: KeyError in one order)."
  },
  {
   "property": "C06",
   "status": "partial",
   "theorems": [
    "C06_unknown_rejected",
    "C06_unknown_error",
    "C06_ignored_partial",
    "C06_ignore_nested_refuted",
    "C06_weak_unknown_refuted"
   ],
   "note": "Rejection at every depth and the exact error proved; ignore_extra_fields works for the top level only (refuted for nested sections), and an unknown entry that looks like a weak reference is accepted (refuted)."
  },
  {
   "property": "C07",
   "status": "partial",
   "theorems": [
    "C07_loaded_values_conform_partial",
    "C07_short_tuple_refuted"
   ],
   "note": "Type safety proved up to the length of tuples; tuples with too few items are accepted (refuted)."
  },
  {
   "property": "C08",
   "status": "partial",
   "theorems": [
    "C08_int_fields",
    "C08_float_fields",
    "C08_accepted",
    "C08_numeral_partial",
    "C08_numeral_refuted"
   ],
   "note": "Proved for ints and floats (exact integers, nearest double); for texts up to 2^53, beyond that the number silently changes (refuted)."
  },
  {
   "property": "C09",
   "status": "proved",
   "theorems": [
    "C09_overrides_are_edits",
    "C09_override_sets_field"
   ],
   "note": "Loading with overrides equals loading the file with the values written into it (both directions); hence the named field holds the text's value, last one wins, text is everything after the first '='. bool fields with an invalid text are excluded (C12); Versioned classes on the way: untouched by rules or file at current version (C13)."
  },
  {
   "property": "C10",
   "status": "partial",
   "theorems": [
    "C10_others_unchanged_partial",
    "C10_others_unchanged_refuted"
   ],
   "note": "Holds except when an override creates a section that the file lacks and whose field has a dataclass instance as declared default: then the siblings are reset to the class defaults (refuted with witness)."
  },
  {
   "property": "C11",
   "status": "proved",
   "theorems": [
    "C11_never_loaded",
    "C11_unknown_reported",
    "C11_malformed"
   ],
   "note": "No config is returned; exact error with the unknown names in order when the known overrides can be written; ValueError for an override without '='."
  },
  {
   "property": "C12",
   "status": "partial",
   "theorems": [
    "C12_bool_texts",
    "C12_other_texts_partial",
    "C12_other_texts_refuted"
   ],
   "note": "The ten texts are exact. Other texts: rejected (UnboundLocalError) if no known override precedes, otherwise silently take the previous override's value (refuted)."
  },
  {
   "property": "C13",
   "status": "partial",
   "theorems": [
    "C13_override_wins_partial",
    "C13_override_wins_refuted"
   ],
   "note": "Overrides are written before upgrade rules run. Proved for fields no rule mentions; refuted for a renamed field."
  },
  {
   "property": "C14",
   "status": "proved",
   "theorems": [
    "C14_load_upgrades",
    "C14_load_needs_upgrade",
    "C14_upgrades_compose",
    "C14_current_version"
   ],
   "note": ""
  },
  {
   "property": "C15",
   "status": "proved",
   "theorems": [
    "C15_dumps_version",
    "C15_config_dict_version"
   ],
   "note": ""
  },
  {
   "property": "C16",
   "status": "partial",
   "theorems": [
    "C16_missing_version_rejected",
    "C16_nested_version_required",
    "C16_version_zero_refuted",
    "C16_no_file_refuted",
    "C16_manager_assumes_current",
    "C16_manager_refuted"
   ],
   "note": "Rejection by load/loads proved at every depth; README's 'version 0' refuted; without a file an override into a nested Versioned class is rejected too (refuted). A StateManager reads a file without version as one of the current version, so it accepts what load rejects (refuted)."
  },
  {
   "property": "C17",
   "status": "partial",
   "theorems": [
    "C17_rename_present_partial",
    "C17_rename_absent",
    "C17_rename_refuted"
   ],
   "note": "Exact effect proved whenever no non-dict stands on the way to the new name; otherwise the value is silently dropped (refuted with witness)."
  },
  {
   "property": "C18",
   "status": "proved",
   "theorems": [
    "C18_delete_removes_one"
   ],
   "note": ""
  },
  {
   "property": "C19",
   "status": "proved",
   "theorems": [
    "C19_map_present",
    "C19_map_error",
    "C19_map_absent"
   ],
   "note": ""
  },
  {
   "property": "C20",
   "status": "proved",
   "theorems": [
    "C20_change_default_present",
    "C20_change_default_absent"
   ],
   "note": ""
  },
  {
   "property": "C21",
   "status": "partial",
   "theorems": [
    "C21_add_default_sections",
    "C21_change_default_sections_partial",
    "C21_two_default_rules_refuted"
   ],
   "note": "Single rules never make a section appear; a sequence of two can (refuted)."
  },
  {
   "property": "C22",
   "status": "partial",
   "theorems": [
    "C22_check_value_partial",
    "C22_check_value_pure",
    "C22_check_value_refuted"
   ],
   "note": "Exact behaviour when the sections on the way are dicts; a None section makes the check crash (refuted)."
  },
  {
   "property": "C23",
   "status": "partial",
   "theorems": [
    "C23_reject_values_partial",
    "C23_reject_values_refuted"
   ],
   "note": "The errors are right but accepted values are deleted (refuted)."
  },
  {
   "property": "C24",
   "status": "partial",
   "theorems": [
    "C24_upgrade_config_partial",
    "C24_only_loadable_files",
    "C24_dry_run",
    "C24_list_schedule_refuted"
   ],
   "note": "For every file that loads, with and without elide_defaults. Missing: schedules more than two levels deep (they cannot be loaded, C37), schedules inside lists (lost; refuted with witness), and dicts using the reserved marker key."
  },
  {
   "property": "C25",
   "status": "partial",
   "theorems": [
    "C25_rule_partial",
    "C25_upgrades_partial",
    "C25_runs_partial",
    "C25_list_refuted",
    "C25_optional_enum_refuted",
    "C25_rename_out_refuted",
    "C25_rename_into_refuted",
    "C25_rename_onto_refuted",
    "C25_add_default_refuted",
    "C25_reject_values_refuted"
   ],
   "note": "Proved for single rules and whole upgrade sequences, for well-typed files (complete := false) and for files that lack nothing (complete := true), on paths through sub-configs and Optional sub-configs. False of the code, with witnesses, for classes inside lists, MapFieldValue on optional enums, fields moved out of or into absent sections, renames onto an existing field, AddDefault of a field the schema lacks, and RejectValues (the schema upgrade always raises). Versioned sub-configs are not covered."
  },
  {
   "property": "C26",
   "status": "partial",
   "theorems": [
    "C26_same_partial",
    "C26_dumped_partial",
    "C26_nan_refuted",
    "C26_tuple_refuted",
    "C26_subconfig_default_refuted"
   ],
   "note": "Proved for classes without Tuple, Dict or Union annotations whose recorded values are plain and NaN-free. False otherwise: a NaN default, a tuple field and a sub-config with a default are refuted with witnesses."
  },
  {
   "property": "C27",
   "status": "proved",
   "theorems": [
    "C27_worst",
    "C27_info_iff",
    "C27_fixes",
    "C27_upgrade_schema"
   ],
   "note": "The worst severity is specified by an inductive relation. Also: WARN means a fix is proposed, ERROR that none is."
  },
  {
   "property": "C28",
   "status": "partial",
   "theorems": [
    "C28_compatible_partial",
    "C28_check_schema_partial",
    "C28_optional_refuted",
    "C28_empty_refuted",
    "C28_enum_refuted",
    "C28_overflow_refuted"
   ],
   "note": "Severity INFO (and 'Schema compatible' printed by check-schema on a dumped schema) implies that files that load with the old class load with the new one. The full statement is false: type changes under Optional/dataclasses (is_subtype is reversed there), removal of an empty dataclass, enum values moving between fields, and int-to-float overflow have witnesses. Not covered: files that set schedules, Versioned sub-configs, enum/literal values that are not None, bool, int or str."
  },
  {
   "property": "C29",
   "status": "partial",
   "theorems": [
    "C29_fixes_partial",
    "C29_check_schema_partial",
    "C29_nested_partial",
    "C29_nested_check_schema_partial",
    "C29_reject_refuted",
    "C29_check_refuted",
    "C29_wrap_default_refuted",
    "C29_wrap_none_refuted",
    "C29_enum_list_refuted",
    "C29_nested_default_refuted",
    "C29_section_refuted",
    "C29_list_refuted",
    "C29_narrower_refuted"
   ],
   "note": "Proved for changes whose rule does its work (repairable, repairable_at): for configs without sub-configs, and for configs with sub-configs at any depth if both classes have the same ones and the file spells them out. False in general, each excluded kind of change has a witness: RejectValues deletes the field, CheckValue rejects, a wrapped default, None inside a wrapped Optional, enums inside lists, nested defaults in absent sections, removed sections, classes inside lists, renames to a narrower type."
  },
  {
   "property": "C30",
   "status": "partial",
   "theorems": [
    "C30_sound_partial",
    "C30_fuel",
    "C30_option_refuted",
    "C30_struct_refuted",
    "C30_required_refuted",
    "C30_overflow_refuted"
   ],
   "note": "Proved for old types built from int, float, str, bool, List, Tuple, Dict, enums and literals, and any new type, for files whose ints fit a float. False for Optional (the direction is reversed), dataclasses (reversed, and new required fields are accepted) and huge ints read as floats; each has a witness."
  },
  {
   "property": "C31",
   "status": "proved",
   "theorems": [
    "C31_least_cost",
    "C31_symmetric",
    "C31_zero_iff_equal",
    "C31_bound"
   ],
   "note": "Least cost over all sequences of whole-string edits, in exact binary64 arithmetic. Lower case is modelled for ASCII letters."
  },
  {
   "property": "C32",
   "status": "proved",
   "theorems": [
    "C32_symmetric",
    "C32_equal",
    "C32_range",
    "C32_constant"
   ],
   "note": "Equality with 1.1 is equality of doubles."
  },
  {
   "property": "C33",
   "status": "proved",
   "theorems": [
    "C33_matching",
    "C33_any_changes",
    "C33_schemas_of_classes"
   ],
   "note": "For all pairs of schemas with distinct names (which schemas of classes have), and for all lists of changes about different things. Pairs are also formed best first."
  },
  {
   "property": "C34",
   "status": "partial",
   "theorems": [
    "C34_round_trip_partial",
    "C34_readable_iff",
    "C34_tuple_refuted",
    "C34_subconfig_default_refuted"
   ],
   "note": "Proved for classes without Tuple, Dict or Union annotations and plain recorded values; readable exactly for those annotations; false otherwise with witnesses. What pyron reads back from what it writes is assumed (see DESIGN.md)."
  },
  {
   "property": "C35",
   "status": "partial",
   "theorems": [
    "C35_values_partial",
    "C35_all_interpolators",
    "C35_between_and_monotone",
    "C35_step_refuted",
    "C35_single_point_refuted",
    "C35_python_breakpoints",
    "C35_python_inside_partial",
    "C35_python_between_refuted",
    "C35_python_monotone_refuted"
   ],
   "note": "Over the reals the claim holds unless the last interpolator is 'step', which never reaches its final value (refuted); one breakpoint alone has no value. In binary64 values at and outside breakpoints are exact; inside, betweenness holds up to 2^-50 relative (exact betweenness refuted) and 'lin' is within 2^-48 of the exact value. The rounded values are not monotone (refuted)."
  },
  {
   "property": "C36",
   "status": "proved",
   "theorems": [
    "C36_schedule_syntax",
    "C36_others_rejected"
   ],
   "note": "for any float() on texts"
  },
  {
   "property": "C37",
   "status": "partial",
   "theorems": [
    "C37_file_schedules_partial",
    "C37_dump_texts",
    "C37_schedules_survive_partial",
    "C37_deep_schedule_refuted",
    "C37_misplaced_schedule_refuted"
   ],
   "note": "Dumping is right at every depth; loading collects exactly the schedules written in the file, and restores all of a dump, up to two levels deep. Deeper ones raise KeyError or are silently attached to another section (both refuted with witness)."
  },
  {
   "property": "C38",
   "status": "partial",
   "theorems": [
    "C38_scheduled_fields_up_to_date",
    "C38_update_succeeds",
    "C38_values",
    "C38_list_element_refuted",
    "C38_dict_entry_refuted"
   ],
   "note": "For schedules at dataclass fields (any depth): exact effect, success and repeatability; for a numeric key, success with the values the breakpoints say (C35), truncated for int fields. Schedules accepted for list elements are never applied and for dict entries break step() (refuted)."
  },
  {
   "property": "C39",
   "status": "partial",
   "theorems": [
    "C39_finds_greatest",
    "C39_order_partial",
    "C39_number_any_order",
    "C39_order_refuted"
   ],
   "note": "The greatest number is found for every directory content; the number is independent of the listing order. The directory itself depends on the order when two subdirectories carry the same number (refuted)."
  },
  {
   "property": "C40",
   "status": "partial",
   "theorems": [
    "C40_recognised_partial",
    "C40_long_numbers_misread",
    "C40_long_numbers_refuted"
   ],
   "note": "Exact range: recognised as n iff -10^11 < n < 10^12; beyond that only the last twelve digits are read."
  },
  {
   "property": "C41",
   "status": "partial",
   "theorems": [
    "C41_crash_safe_partial",
    "C41_never_none_partial",
    "C41_smaller_key_refuted"
   ],
   "note": "All histories of steps, crashes at any system call (same or different file systems, any copy and delete order) and restarts, with an increasing key. With a decreasing key across file systems a partial checkpoint is found (refuted)."
  },
  {
   "property": "C42",
   "status": "partial",
   "theorems": [
    "C42_checkpoint_exists_partial",
    "C42_history_partial",
    "C42_repeated_key_removes",
    "C42_then_steps_raise",
    "C42_repeated_key_refuted"
   ],
   "note": "Holds whenever the key changed to a value without a checkpoint. Two step() calls with the same key delete the only checkpoint (refuted), and every later step raises FileNotFoundError."
  },
  {
   "property": "C43",
   "status": "partial",
   "theorems": [
    "C43_restart_partial",
    "C43_after_step_partial",
    "C43_obeyed_partial",
    "C43_obeyed_schedules_partial",
    "C43_config_before_state_refuted",
    "C43_changed_field_refuted"
   ],
   "note": "Same config, schedules and state after any history of steps and crashes ending with a completed step, and the next step writes the same files. The same overrides may be given again when the config obeys them, which it does after a first start with them. Missing: an override for a part of the field of another one, at the first start together with schedules overrides for whole sub-configs or lists, schedules deeper than two levels and nested Serializable objects (false: C37, C48), config read before state (refuted) and overridden fields that the program changed (refuted)."
  },
  {
   "property": "C44",
   "status": "partial",
   "theorems": [
    "C44_checkpoint_wins",
    "C44_history_partial",
    "C44_no_checkpoint",
    "C44_init_path",
    "C44_foreign_refuted"
   ],
   "note": "Exact equation in terms of the resume point; after any history it is a checkpoint written by step. A foreign numbered directory with a larger number hides the checkpoint (refuted)."
  },
  {
   "property": "C45",
   "status": "proved",
   "theorems": [
    "C45_first_access",
    "C45_read_once",
    "C45_unread",
    "C45_other_fields",
    "C45_failed_access"
   ],
   "note": "All sequences of reads and assignments, with files changing arbitrarily between them."
  },
  {
   "property": "C46",
   "status": "partial",
   "theorems": [
    "C46_attributes_partial",
    "C46_assignment_lost",
    "C46_attributes_refuted"
   ],
   "note": "Holds when unloaded fields are read before they are assigned; otherwise the assignment is lost (proved in general, and refuted by an example)."
  },
  {
   "property": "C47",
   "status": "proved",
   "theorems": [
    "C47_no_unpickling",
    "C47_pickle_raises"
   ],
   "note": "All objects, access sequences and files."
  },
  {
   "property": "C48",
   "status": "partial",
   "theorems": [
    "C48_blobs_found_partial",
    "C48_list_refuted",
    "C48_nested_refuted",
    "C48_dict_refuted"
   ],
   "note": "Holds for Serializable attributes of the state object itself; false in lists (other file name), nested dataclasses (never loaded) and dicts (file name collisions)."
  },
  {
   "property": "C49",
   "status": "partial",
   "theorems": [
    "C49_array_partial",
    "C49_tensor_partial",
    "C49_encode_others",
    "C49_decode_others",
    "C49_file",
    "C49_objects_refuted",
    "C49_records_refuted",
    "C49_grad_refuted",
    "C49_impostor_refuted",
    "C49_readonly",
    "C49_large_refuted"
   ],
   "note": "Proved for arrays of any shape and strides with a scalar dtype, tensors with a dtype numpy knows, and whole files of them. Refuted by witnesses for arrays of objects and of records, tensors that require grad, dicts with the four keys, and files with arrays of 4 GiB or more; decoded arrays are read-only."
  },
  {
   "property": "C50",
   "status": "partial",
   "theorems": [
    "C50_listing",
    "C50_query_partial",
    "C50_query_lines",
    "C50_query_section",
    "C50_optional_refuted"
   ],
   "note": "help(T) lists exactly the fields at any depth, under their sections; a query shows all fields of that name first, except those in Optional or List sections (refuted by a witness). Names shorter than 2^50 characters."
  },
  {
   "property": "C51",
   "status": "proved",
   "theorems": [
    "C51_field_lookup",
    "C51_accepted"
   ],
   "note": ""
  },
  {
   "property": "C52",
   "status": "proved",
   "theorems": [
    "C52_stateful_runs",
    "C52_stateful_never",
    "C52_stateful_exits",
    "C52_command_runs",
    "C52_command_never",
    "C52_command_exits"
   ],
   "note": "For every namespace argparse can return; argparse itself is not modelled. An empty --config counts as not given (Python's or). The function is also not run if the checkpoint directory cannot be created."
  },
  {
   "property": "C53",
   "status": "partial",
   "theorems": [
    "C53_optional_union_refuted",
    "C53_literal_refuted",
    "C53_scalar_union_refuted"
   ],
   "note": "Refuted for each of the three kinds of annotation; what does hold is C01."
  },
  {
   "property": "C54",
   "status": "partial",
   "theorems": [
    "C54_same_as_load_partial",
    "C54_rejected",
    "C54_same_as_load_refuted"
   ],
   "note": "Holds exactly for classes without Serializable and bare None annotations; StateManager rejects all others."
  },
  {
   "property": "C55",
   "status": "partial",
   "theorems": [
    "C55_values_partial",
    "C55_nested_values_partial",
    "C55_exchange_refuted"
   ],
   "note": "Proved for the configs and changes of C29_fixes_partial, field by field (becomes), and for those of C29_nested_partial, for the fields of sub-configs at any depth (becomes_at). Refuted for two variants of an enum that exchange their values: the proposed rules undo each other and the file silently means the other variant."
  },
  {
   "property": "C56",
   "status": "partial",
   "theorems": [
    "C56_never_empty",
    "C56_order",
    "C56_most_similar",
    "C56_alike",
    "C56_worth",
    "C56_ends",
    "C56_contains_refuted"
   ],
   "note": "Everything except that fields whose name contains the query are always shown, which is refuted by a witness. Fields in Optional or List sections are never considered (C50)."
  },
  {
   "property": "C57",
   "status": "partial",
   "theorems": [
    "C57_malformed",
    "C57_reported",
    "C57_unknown_fields",
    "C57_stateful",
    "C57_others_raised",
    "C57_status_refuted",
    "C57_mistakes_refuted"
   ],
   "note": "Proved for unknown fields and for every DeserializeTypeError/DeserializeValueError. Refuted by witnesses: an override without '=' exits with status 0; invalid enum values, missing values and misspelt truth values are passed on as raw exceptions."
  },
  {
   "property": "C58",
   "status": "partial",
   "theorems": [
    "C58_conforming_partial",
    "C58_check_schema_partial"
   ],
   "note": "Proved for rules that keep files and schema in step (the conditions of C25), classes and changes as in C28, and files for which the rules run; sections marked by default rules are covered. Where C25 and C28 are refuted, this is too."
  },
  {
   "property": "C59",
   "status": "partial",
   "theorems": [
    "C59_found",
    "C59_report_partial",
    "C59_values",
    "C59_succeeds_iff",
    "C59_tuple_refuted",
    "C59_enum_refuted"
   ],
   "note": "The changes found are exactly the differences; the report accounts for all of them (accounts). Refuted by witnesses: two tuples, dicts or unions at the same place give an error instead of a report (exactly those, C59_succeeds_iff), and a removed enum variant can be merged with an added one of another field and is then not reported at its own."
  },
  {
   "property": "C60",
   "status": "partial",
   "theorems": [
    "C60_dump_iff",
    "C60_dump_elided",
    "C60_loaded_partial",
    "C60_private_refuted",
    "C60_schedule_refuted"
   ],
   "note": "Exactly the objects without private fields can be dumped; so every loaded config of a class without them can. Refuted by witnesses: a class with a field _x loads but cannot be dumped, and dumping along with schedules (upgrade_config) fails if a schedule belongs to a dict key and another key of the dict starts with it and a dot."
  },
  {
   "property": "C61",
   "status": "partial",
   "theorems": [
    "C61_left_out_partial",
    "C61_written_partial",
    "C61_enum_refuted",
    "C61_section_refuted"
   ],
   "note": "For values made of numbers, strings, None, lists, tuples and dicts, in any instance at any depth of nested instances. Refuted by witnesses: enum values and sub-configs that equal their default are written."
  },
  {
   "property": "C62",
   "status": "partial",
   "theorems": [
    "C62_context_partial",
    "C62_all_given",
    "C62_first_read",
    "C62_initial_once",
    "C62_late_refuted",
    "C62_initial_context_refuted"
   ],
   "note": "Every call gets exactly what was registered on the state, or on the manager before the state was loaded; the latest value of each key. Refuted by witnesses: registrations on the manager after the first access to the state do not reach attributes deserialized later, and a context that initial_state put on the state is discarded. Loading, initial_state and schedules may raise, and the program may try again."
  },
  {
   "property": "C63",
   "status": "partial",
   "theorems": [
    "C63_malformed_rejected",
    "C63_misplaced_rules",
    "C14_current_version",
    "C63_newer_refuted"
   ],
   "note": "A version that is not an int or bool is a TypeError, and rules for the current or later versions make every versioned file an AssertionError. Newer versions are accepted: such a file is read as one of the current version (refuted; C14_current_version says so for all of them). minimum_version() is not read by any code, so it is not in the model."
  },
  {
   "property": "C64",
   "status": "partial",
   "theorems": [
    "C64_read_once",
    "C64_config_once",
    "C64_config_fails",
    "C64_state_fails",
    "C64_started",
    "C64_schedule_error",
    "C64_silent_refuted"
   ],
   "note": "All sequences of accesses, with exceptions caught in between. The last sentence is false: after a schedule that raises, only the first access to the state (and step) raises, and sm.config is out of date (refuted, and C64_schedule_error says exactly what happens). step() with a checkpoint directory is in C40-C44."
  },
  {
   "property": "C65",
   "status": "partial",
   "theorems": [
    "C65_description",
    "C65_only_descriptions",
    "C65_override_refuted"
   ],
   "note": "Exact rule for every field at every depth: the last description in the order class, bases left to right, depth first. So an inherited description wins over the class's own (refuted). docstring_parser is not modelled: a docstring is the list of parameters it finds."
  },
  {
   "property": "C66",
   "status": "partial",
   "theorems": [
    "C66_changes",
    "C66_fixes_partial",
    "C66_files",
    "C66_fixes_refuted"
   ],
   "note": "Changes, exceptions and compatibility never depend on descriptions (for an old schema as schema files contain them). Severities and rules do not either unless the type that changed contains a class; otherwise a docstring can turn a warning with a rule into an error without one (refuted)."
  },
  {
   "property": "C67",
   "status": "partial",
   "theorems": [
    "C67_paste_partial",
    "C67_function",
    "C67_list_refuted",
    "C67_nan_refuted",
    "C67_enum_refuted",
    "C67_version_refuted"
   ],
   "note": "The entry is read back by an independent reader of Python expressions, for every rule without a function whose values have a literal (floats: if repr can be read back). Refuted: every entry with a MapFieldValue is not source (the lambda is printed as <function ...>, C67_function says so in general); NaN; enum members inside a list default (printed as <Color.RED: 1>); a schema without version gives the key None. Default values of classes are not covered; neither is the parenthesised or otherwise equivalent source that a user may write."
  },
  {
   "property": "C68",
   "status": "partial",
   "theorems": [
    "C68_lines_partial",
    "C68_default_refuted",
    "C68_variant_refuted",
    "C68_value_refuted"
   ],
   "note": "Severity and path can be read back from every line, and the lines come in order and are followed by the verdict, if field names are made of letters, digits and _ and no printed default contains a newline. What changed is not always told: new fields with a default are said to have none, the old name of a variant is not printed, values are printed with str (refuted)."
  },
  {
   "property": "C69",
   "status": "partial",
   "theorems": [
    "C69_check_schema_partial",
    "C69_rules_partial",
    "C69_default_removed_refuted",
    "C69_wrap_refuted",
    "C69_literal_refuted",
    "C69_rename_refuted",
    "C69_enum_inside_refuted",
    "C69_enum_swap_refuted",
    "C69_check_inside_refuted"
   ],
   "note": "Proved for schemas with the same sub-configs, at any depth, and any combination of: added, removed, renamed and moved fields, changed defaults, widened types, types that become literals, added variants and values, enum values changed to fresh ones. False, each with a witness, for: a removed default, a value that becomes a list (both proposed again forever), a literal that loses a value (AssertionError), renamed Tuple/Dict/Union fields (ValueError, only without a schema file), enum values changed inside another type or exchanged, literals inside lists. Missing: renamed enum variants, sub-configs added or removed, their defaults."
  },
  {
   "property": "C70",
   "status": "proved",
   "theorems": [
    "C70_placeholder",
    "C70_access"
   ],
   "note": "All unversioned state classes with any other fields (nested Serializable objects included: they are registered elsewhere)."
  },
  {
   "property": "C71",
   "status": "partial",
   "theorems": [
    "C71_history_partial",
    "C71_kept_partial",
    "C71_nested_partial",
    "C71_nested_kept_partial"
   ],
   "note": "By induction over the releases, for the changes that repairable (SpecFix.v) describes, and for classes with sub-configs at any depth (that stay in place and are spelled out in the file) for those that repairable_at (SpecNest.v) describes; C29 has witnesses for the others. Old defaults and new enum values must not contain marks of the library or numbers too large for a float, and no field is called version."
  },
  {
   "property": "C72",
   "status": "partial",
   "theorems": [
    "C72_plain_partial",
    "C72_resumed_partial",
    "C72_detached",
    "C72_same_key_refuted"
   ],
   "note": "By induction over the actions: writing the new checkpoint reads every field of the state first, so that removing the old one loses nothing. It is false if step is called before the key has a new value (C72_same_key_refuted: no checkpoint is written, the only one is removed, the unread fields raise FileNotFoundError), and fields that were not read must not be assigned (C46)."
  },
  {
   "property": "C73",
   "status": "partial",
   "theorems": [
    "C73_newest_survives_partial",
    "C73_lone_start_partial",
    "C73_gone_raises",
    "C73_steps_succeed_refuted",
    "C73_busy_start_refuted"
   ],
   "note": "Invariant over all interleavings: only checkpoints below the newest are removed, and a rename onto a directory with files fails. Two parts are false of the code: a process whose last checkpoint was removed by another one fails in every later step (shutil.move raises; C73_steps_succeed_refuted with C73_gone_raises), and a process that lists the directory while another one steps can find no checkpoint at all (C73_busy_start_refuted). Keys must increase in each process and fit into twelve characters (C40, C42)."
  },
  {
   "property": "C74",
   "status": "partial",
   "theorems": [
    "C74_run_partial",
    "C74_same_partial",
    "C74_starts_partial",
    "C74_goes_on_partial",
    "C74_growing_key_partial"
   ],
   "note": "User code is any program that reads and assigns attributes of the state (Loop.v), the config is read after the first access to state. The invariant combines the crash analysis of the directory (C39), the restart theorem (C43) and lazy loading (C72). Missing, each because the claim is false there: schedules more than two levels deep (C37_deep_schedule_refuted), Serializable objects below the attributes of the state (C48_list_refuted), reading config before state (C43_config_before_state_refuted), assigning a Serializable field before loading it (C46_attributes_refuted). Not covered: an init_path checkpoint with Serializable objects, and keys that do not grow (C74_growing_key_partial derives the freshness of every number from a key that grows along the run in memory)."
  }
 ]
}