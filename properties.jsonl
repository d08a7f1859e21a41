{"id": "C01", "title": "dump/load round trip", "statement": "For every dataclass type built from int, float, str, bool, Optional, List, Tuple, Dict with string keys, Literal of constants that typing accepts as type arguments, enums whose members are found by name, nested (possibly Versioned) dataclasses with public field names and Unions of distinctly named dataclasses, and every well-typed value c of it, loads(T, dumps(c)) succeeds and returns exactly c; the same holds for dump to and load from a file.", "quantifier": "all supported dataclass types (any nesting depth) and all well-typed values of them", "why_tests_cant": "types and values are unbounded trees; tests only serialise a handful of configs", "anchors": ["hyperstate/serde.py:asdict", "hyperstate/serde.py:from_dict", "hyperstate/hyperstate.py:dumps", "hyperstate/hyperstate.py:loads"]}
{"id": "C02", "title": "Enum fields survive dump/load", "statement": "A config value that is a member of an Enum class can be dumped and loaded back to the same member. (The code writes the member's name and reads by the member's value, so this holds exactly when looking the member's name up as a value gives that member back.)", "quantifier": "all enum classes and all their members", "why_tests_cant": "the repository's tests only dump enum members whose name equals their value", "anchors": ["hyperstate/serde.py:asdict", "hyperstate/serde.py:from_dict"]}
{"id": "C03", "title": "Eliding defaults loses nothing", "statement": "dumps(c, elide_defaults=True) omits only fields whose value equals the field's default, and loading the result gives a config equal (Python ==, field by field) to c.", "quantifier": "all supported dataclass types with well-typed defaults and all well-typed values", "why_tests_cant": "depends on every combination of values equal or not equal to defaults at every depth", "anchors": ["hyperstate/hyperstate.py:ElideDefaults", "hyperstate/serde.py:asdict", "hyperstate/serde.py:from_dict"]}
{"id": "C04", "title": "Default construction", "statement": "load(T, None) with no overrides succeeds exactly when every field without a default is a dataclass that is itself default-constructible; it then returns the instance in which every field has its declared default and every default-less dataclass field is built the same way recursively. Otherwise it raises TypeError naming the missing leaf fields.", "quantifier": "all dataclass types", "why_tests_cant": "class hierarchies are unbounded trees", "anchors": ["hyperstate/serde.py:_try_create_defaults", "hyperstate/serde.py:from_dict", "hyperstate/hyperstate.py:load"]}
{"id": "C05", "title": "Missing fields take their defaults, order does not matter", "statement": "Loading a file that gives only some of the fields yields the given values for those fields and the defaults for all others; the result does not depend on the order of fields in the file nor on the iteration order of Python sets used internally.", "quantifier": "all dataclass types, all partial files, all field orders and all set iteration orders", "why_tests_cant": "set iteration order is hash-randomised per process; tests see one order per run", "anchors": ["hyperstate/serde.py:from_dict", "hyperstate/serde.py:_try_create_defaults"]}
{"id": "C06", "title": "Unknown fields are rejected unless ignored", "statement": "A field in the file that the dataclass does not declare makes loading fail with DeserializeTypeError, at every depth; with ignore_extra_fields=True unknown fields are ignored and the result is the same as if they were not in the file.", "quantifier": "all dataclass types, all files, unknown fields at any depth", "why_tests_cant": "tests check one file with an extra field at top level", "anchors": ["hyperstate/serde.py:from_dict", "hyperstate/hyperstate.py:StateManager"]}
{"id": "C07", "title": "Loading is type-safe", "statement": "If loading succeeds, the returned object conforms to the declared type: every field at every depth holds a value of its annotated type (Optional, List, Tuple, Dict, Literal, Enum, Union and nested dataclasses included).", "quantifier": "all types, all input files, all overrides", "why_tests_cant": "input files are arbitrary trees", "anchors": ["hyperstate/serde.py:from_dict"]}
{"id": "C08", "title": "Numeric coercion never changes the number", "statement": "For an int field, a float or numeric string is accepted only if it is integral and then yields that very integer; for a float field an int yields the nearest double. Anything else is rejected; no value is ever silently truncated.", "quantifier": "all ints, all doubles, all strings", "why_tests_cant": "the number line cannot be enumerated", "anchors": ["hyperstate/serde.py:from_dict"]}
{"id": "C09", "title": "An override sets the named field, last one wins", "statement": "After load with override 'a.b.c=v' for a field that exists, the loaded config holds at a.b.c the value v (converted to the field's type) whatever the file says; when several overrides name the same field the last one wins; the value is everything after the first '='.", "quantifier": "all dataclass types, files and override lists (non-Versioned, or file already at the current version)", "why_tests_cant": "combinations of file contents and override lists are unbounded", "anchors": ["hyperstate/hyperstate.py:OverridesDeserializer", "hyperstate/hyperstate.py:_typed_load"]}
{"id": "C10", "title": "Overrides change nothing else", "statement": "Fields whose path is not a prefix or extension of an overridden path have the same value as without overrides.", "quantifier": "all dataclass types, files and override lists", "why_tests_cant": "frame conditions quantify over every other field", "anchors": ["hyperstate/hyperstate.py:OverridesDeserializer"]}
{"id": "C11", "title": "Unknown or malformed overrides are reported, all of them", "statement": "If any override names a field that the config type does not have, loading fails and the error reports exactly the unknown names, in order (FieldNotFoundError for one, FieldsNotFoundError for several); an override without '=' is rejected with ValueError. No config is returned in either case.", "quantifier": "all types and override lists", "why_tests_cant": "override lists are unbounded", "anchors": ["hyperstate/hyperstate.py:OverridesDeserializer", "hyperstate/hyperstate.py:FieldsNotFoundError", "hyperstate/schema/types.py:Struct.find_field"]}
{"id": "C12", "title": "Boolean overrides", "statement": "An override of a bool field accepts exactly True/true/1/t/T and False/false/0/f/F with the obvious meaning and rejects every other text.", "quantifier": "all strings, in every position of an override list", "why_tests_cant": "the text is an arbitrary string and the bug depends on the preceding overrides", "anchors": ["hyperstate/hyperstate.py:OverridesDeserializer"]}
{"id": "C13", "title": "Overrides win over upgraded old files", "statement": "When an old-version file is loaded with overrides on the new field names, the overridden fields hold the overridden values after the upgrade.", "quantifier": "all versioned types, rule lists, old files and override lists", "why_tests_cant": "interaction of two features over all rule lists", "anchors": ["hyperstate/hyperstate.py:_typed_load", "hyperstate/schema/versioned.py:VersionedDeserializer", "hyperstate/hyperstate.py:OverridesDeserializer"]}
{"id": "C14", "title": "Upgrades compose and stop at the current version", "statement": "Loading a file of version v into a class of version n applies the rules of versions v, v+1, ..., n-1 in order, each list in order and each exactly once; upgrading v->m and then m->n is the same as v->n; a file at (or beyond) the current version is not modified.", "quantifier": "all version numbers, rule tables and file contents", "why_tests_cant": "histories of versions and rule lists are unbounded", "anchors": ["hyperstate/schema/versioned.py:Versioned._apply_upgrades", "hyperstate/schema/versioned.py:VersionedDeserializer"]}
{"id": "C15", "title": "The version is recorded on dump", "statement": "dumps / config_dict of a value containing Versioned dataclasses writes, for each Versioned dataclass at any depth, a field 'version' holding the class's version as the first field, and writes none for other dataclasses.", "quantifier": "all values", "why_tests_cant": "values are unbounded trees", "anchors": ["hyperstate/schema/versioned.py:VersionedSerializer", "hyperstate/hyperstate.py:StateManager.config_dict"]}
{"id": "C16", "title": "Missing version", "statement": "Loading a Versioned config from a file without a version field is rejected by load/loads (and accepted only when there is no file); README says such snapshots are treated as version 0.", "quantifier": "all versioned types and files", "why_tests_cant": "must hold for every file", "anchors": ["hyperstate/schema/versioned.py:VersionedDeserializer", "hyperstate/hyperstate.py:load", "hyperstate/hyperstate.py:StateManager._load_config"]}
{"id": "C17", "title": "RenameField moves exactly one value", "statement": "Applying RenameField(old,new) to a file in which old is present leaves its value at new, removes old and leaves every unrelated path unchanged; if old is absent the file is unchanged.", "quantifier": "all paths (any length), all file trees", "why_tests_cant": "file trees and paths are unbounded", "anchors": ["hyperstate/schema/rewrite_rule.py:RenameField", "hyperstate/schema/rewrite_rule.py:_remove", "hyperstate/schema/rewrite_rule.py:_insert"]}
{"id": "C18", "title": "DeleteField removes exactly one value", "statement": "Applying DeleteField(p) removes p if present and leaves every path not under p unchanged; it never fails on a tree of nested dicts.", "quantifier": "all paths and file trees", "why_tests_cant": "unbounded trees", "anchors": ["hyperstate/schema/rewrite_rule.py:DeleteField", "hyperstate/schema/rewrite_rule.py:_remove"]}
{"id": "C19", "title": "MapFieldValue maps exactly one value", "statement": "Applying MapFieldValue(p,f) replaces the value x at p by f(x) if present, leaves every unrelated path unchanged, and is the identity when p is absent.", "quantifier": "all paths, functions and file trees", "why_tests_cant": "unbounded trees", "anchors": ["hyperstate/schema/rewrite_rule.py:MapFieldValue"]}
{"id": "C20", "title": "ChangeDefault pins the old default", "statement": "After ChangeDefault(p, old, new), a file that gave p explicitly still has that value at p, and a file that did not give p has old at p (when its parent is present); all unrelated paths are unchanged.", "quantifier": "all paths, defaults and file trees", "why_tests_cant": "unbounded trees", "anchors": ["hyperstate/schema/rewrite_rule.py:ChangeDefault"]}
{"id": "C21", "title": "Default rules on absent sub-configs", "statement": "AddDefault/ChangeDefault on a nested field whose parent sub-config is absent from the file never makes that sub-config appear (an Optional stays at its default), while a sub-config that is built by default construction gets the old default.", "quantifier": "all types, nested paths and files", "why_tests_cant": "interaction between rewrite rules and default construction", "anchors": ["hyperstate/schema/rewrite_rule.py:AddDefault", "hyperstate/schema/rewrite_rule.py:ChangeDefault", "hyperstate/serde.py:_try_create_defaults", "hyperstate/serde.py:from_dict"]}
{"id": "C22", "title": "CheckValue is a pure check", "statement": "CheckValue(p, allowed) raises ValueError exactly when p is present with a value outside allowed; otherwise the file is unchanged.", "quantifier": "all paths, allowed sets and file trees", "why_tests_cant": "unbounded trees", "anchors": ["hyperstate/schema/rewrite_rule.py:CheckValue", "hyperstate/schema/rewrite_rule.py:_get"]}
{"id": "C23", "title": "RejectValues is a pure check", "statement": "RejectValues(p, disallowed) raises ValueError exactly when p is present with a disallowed value; otherwise the file is unchanged.", "quantifier": "all paths, disallowed sets and file trees", "why_tests_cant": "unbounded trees", "anchors": ["hyperstate/schema/rewrite_rule.py:RejectValues"]}
{"id": "C24", "title": "upgrade-config preserves meaning and is idempotent", "statement": "Rewriting a config file with upgrade-config yields a file at the current version that loads to an equal config with the same schedules; running it again changes nothing.", "quantifier": "all versioned types, rule tables and config files", "why_tests_cant": "quantifies over every loadable file", "anchors": ["hyperstate/schema/schema_checker.py:_upgrade_config"]}
{"id": "C25", "title": "Schema upgrade mirrors data upgrade", "statement": "If a file conforms to a schema, then after an upgrade rule is applied to both, the upgraded file conforms to the upgraded schema.", "quantifier": "all schemas, rules and conforming files", "why_tests_cant": "a simulation between two interpreters of the same rule language", "anchors": ["hyperstate/schema/rewrite_rule.py:RewriteRule.apply_to_schema", "hyperstate/schema/rewrite_rule.py:_remove_schema", "hyperstate/schema/rewrite_rule.py:_insert_schema"]}
{"id": "C26", "title": "check-schema on an unchanged class reports nothing", "statement": "Comparing the schema of a class with itself (also after dump-schema and reload) reports no change and severity INFO.", "quantifier": "all config classes", "why_tests_cant": "must hold for every class that users can write", "anchors": ["hyperstate/schema/schema_checker.py:SchemaChecker", "hyperstate/schema/types.py:materialize_type", "hyperstate/schema/types.py:load_schema"]}
{"id": "C27", "title": "Severity is the worst change", "statement": "The checker's severity is the maximum of the severities of the reported changes and INFO when there is none; upgrade-schema rewrites the schema file exactly when it is INFO.", "quantifier": "all change lists", "why_tests_cant": "unbounded lists", "anchors": ["hyperstate/schema/schema_checker.py:SchemaChecker.severity", "hyperstate/schema/schema_checker.py:_upgrade_schema", "hyperstate/schema/schema_change.py:Severity"]}
{"id": "C28", "title": "'Schema compatible' is sound", "statement": "If the checker reports severity INFO for old and new class, every file that loads with the old class loads with the new class.", "quantifier": "all pairs of classes and all files", "why_tests_cant": "quantifies over all schema pairs and all data", "anchors": ["hyperstate/schema/schema_checker.py:SchemaChecker._find_changes", "hyperstate/schema/schema_checker.py:SchemaChecker._find_enum_variant_renames"]}
{"id": "C29", "title": "Proposed fixes repair what they are proposed for", "statement": "If the checker reports WARN (a fix exists for each incompatible change), files that load with the old class load with the new class after applying the proposed fixes.", "quantifier": "all pairs of classes and all files", "why_tests_cant": "quantifies over all schema pairs and all data", "anchors": ["hyperstate/schema/schema_change.py:SchemaChange.proposed_fix", "hyperstate/schema/schema_checker.py:SchemaChecker"]}
{"id": "C30", "title": "is_subtype is sound", "statement": "If old.is_subtype(new), every value accepted for a field of type old is accepted for a field of type new.", "quantifier": "all pairs of schema types and all values", "why_tests_cant": "types and values are unbounded trees", "anchors": ["hyperstate/schema/types.py:Primitive.is_subtype", "hyperstate/schema/types.py:Option.is_subtype", "hyperstate/schema/types.py:Struct.is_subtype"]}
{"id": "C31", "title": "levenshtein is the minimal edit cost", "statement": "levenshtein(s,t) is the least total cost of any sequence of insertions (1), deletions (1) and substitutions (1, or 0.25 if only the case differs) turning s into t; in particular it is symmetric, zero exactly on equal strings and at most max(len(s),len(t)).", "quantifier": "all pairs of strings of fewer than 2^50 characters (longer ones do not fit in memory)", "why_tests_cant": "strings are unbounded; the dynamic program must equal a minimum over infinitely many scripts", "anchors": ["hyperstate/schema/schema_checker.py:levenshtein"]}
{"id": "C32", "title": "name_similarity", "statement": "name_similarity is symmetric, is 1.1 exactly for equal names and otherwise lies between 0 and 1.", "quantifier": "all pairs of names of fewer than 2^50 characters", "why_tests_cant": "unbounded strings", "anchors": ["hyperstate/schema/schema_checker.py:name_similarity"]}
{"id": "C33", "title": "Rename detection is a matching", "statement": "Rename detection terminates, pairs each removed item with at most one added item and vice versa, keeps all other changes untouched, and leaves no unpaired added/removed pair that is similar enough to be paired.", "quantifier": "all change lists", "why_tests_cant": "unbounded lists; greedy loop", "anchors": ["hyperstate/schema/schema_checker.py:SchemaChecker._find_renames"]}
{"id": "C34", "title": "Schema file round trip", "statement": "load_schema(dump_schema(C)) is the schema of C (up to docstrings).", "quantifier": "all config classes", "why_tests_cant": "unbounded trees", "anchors": ["hyperstate/schema/schema_checker.py:_dump_schema", "hyperstate/schema/types.py:load_schema", "hyperstate/schema/types.py:schema_from_namedtuple"]}
{"id": "C35", "title": "Schedules interpolate their breakpoints", "statement": "A schedule with increasing breakpoints (x0,y0)..(xn,yn) has value y0 before x0, yn after xn, yi at xi, is between the two neighbouring y's in between, and is monotone in between for 'lin' and 'cos'.", "quantifier": "all breakpoint lists, all interpolators, all real x", "why_tests_cant": "quantifies over all reals and all schedules", "anchors": ["hyperstate/schedule.py:PiecewiseFunction.get_value", "hyperstate/schedule.py:INTERPOLATORS"]}
{"id": "C36", "title": "Schedule syntax", "statement": "A schedule text 'name: y0@x0 [interp] y1@x1 ...' is parsed to exactly those points, each segment using the most recently named interpolator ('lin' initially); unknown interpolators and malformed points are rejected.", "quantifier": "all schedule texts", "why_tests_cant": "unbounded strings", "anchors": ["hyperstate/schedule.py:_parse_schedule"]}
{"id": "C37", "title": "Schedules survive checkpoints", "statement": "A config whose int/float fields are set to schedules is dumped with the schedule texts in place of the current values, and loading it back restores the same schedules.", "quantifier": "all config types, schedule positions (any depth) and states", "why_tests_cant": "positions are paths of any depth", "anchors": ["hyperstate/hyperstate.py:ScheduleSerializer", "hyperstate/hyperstate.py:ScheduleDeserializer"]}
{"id": "C38", "title": "step() keeps scheduled fields up to date", "statement": "After step() (and after the first access to state) every scheduled config field holds the schedule's value at the state's current key, and all other config fields are unchanged.", "quantifier": "all configs, schedules and states", "why_tests_cant": "quantifies over all histories of the state", "anchors": ["hyperstate/hyperstate.py:_apply_schedules", "hyperstate/hyperstate.py:StateManager.step", "hyperstate/hyperstate.py:StateManager.state"]}
{"id": "C39", "title": "The latest checkpoint is found", "statement": "find_latest_checkpoint returns the directory with the greatest step number among all subdirectories whose name ends in a 12-character integer, ignores everything else, and does not depend on the directory listing order.", "quantifier": "all directory contents and listing orders", "why_tests_cant": "listing order is up to the OS", "anchors": ["hyperstate/hyperstate.py:find_latest_checkpoint"]}
{"id": "C40", "title": "Checkpoint names are ordered like steps", "statement": "The checkpoint written for key value n is recognised with exactly the number n, for every n.", "quantifier": "all ints", "why_tests_cant": "all ints, including those with more than twelve digits", "anchors": ["hyperstate/hyperstate.py:StateManager.step", "hyperstate/hyperstate.py:find_latest_checkpoint"]}
{"id": "C41", "title": "Checkpointing is crash-safe", "statement": "If the process dies at any point during step() (same or different file systems for temp dir and checkpoint dir), a new StateManager on the directory finds a complete checkpoint: the previous one or the new one; never a partial one, never none.", "quantifier": "all crash points, all copy/delete orders, all histories of steps, crashes and restarts", "why_tests_cant": "crash points and orders cannot be enumerated by unit tests", "anchors": ["hyperstate/hyperstate.py:StateManager.step", "hyperstate/hyperstate.py:StateManager.checkpoint", "hyperstate/hyperstate.py:atomic_move", "hyperstate/hyperstate.py:find_latest_checkpoint"]}
{"id": "C42", "title": "After step() a checkpoint exists", "statement": "After every completed step() call the checkpoint directory contains a complete checkpoint of the state at that call.", "quantifier": "all histories of state changes and step() calls", "why_tests_cant": "depends on histories, e.g. two calls without a change of the key", "anchors": ["hyperstate/hyperstate.py:StateManager.step"]}
{"id": "C43", "title": "Restart resumes exactly", "statement": "A StateManager created on the checkpoint directory after step() has the same config (scheduled values and schedules included) and the same state, including Serializable fields once accessed, as the one that wrote it, also when the same overrides are given again.", "quantifier": "all config/state types and values, all schedules", "why_tests_cant": "unbounded values; composition of every serde feature", "anchors": ["hyperstate/hyperstate.py:StateManager._load_config", "hyperstate/hyperstate.py:StateManager._load_state", "hyperstate/hyperstate.py:StateManager.checkpoint"]}
{"id": "C44", "title": "Checkpoint directory takes precedence", "statement": "If the checkpoint directory contains a checkpoint written by step(), config and state are loaded from it and init_path is ignored; otherwise from init_path (directory: both, file: config only, none: defaults and initial_state).", "quantifier": "all directory contents and init paths", "why_tests_cant": "depends on arbitrary directory contents", "anchors": ["hyperstate/hyperstate.py:StateManager.checkpoint_dir", "hyperstate/hyperstate.py:StateManager._load_config", "hyperstate/hyperstate.py:StateManager._load_state"]}
{"id": "C45", "title": "Lazy fields are loaded on first access only", "statement": "A Serializable field of a Lazy state is read from disk at its first access and never again; fields never accessed are never read, so a missing blob only fails the access to that field.", "quantifier": "all sequences of accesses", "why_tests_cant": "sequences are unbounded", "anchors": ["hyperstate/lazy.py:Lazy.__getattribute__", "hyperstate/lazy.py:LazyDeserializer"]}
{"id": "C46", "title": "Lazy fields behave like attributes", "statement": "Reading a field of a Lazy state returns the value last assigned to it, or the checkpointed value if it was never assigned.", "quantifier": "all sequences of reads and assignments", "why_tests_cant": "sequences are unbounded", "anchors": ["hyperstate/lazy.py:Lazy.__getattribute__"]}
{"id": "C47", "title": "No unpickling without consent", "statement": "Loading and accessing a checkpoint never unpickles data unless UNSAFE_DESERIALIZE_PICKLE is set in the environment.", "quantifier": "all checkpoints and access sequences", "why_tests_cant": "security property over all inputs", "anchors": ["hyperstate/lazy.py:Lazy.__getattribute__", "hyperstate/lazy.py:LazyDeserializer"]}
{"id": "C48", "title": "Blobs are found again", "statement": "Every Serializable object in a dumped state is written to its own file and read back from that same file when the state is loaded.", "quantifier": "all states, Serializable objects at any position (attributes, lists, dicts, nested dataclasses)", "why_tests_cant": "positions are arbitrary paths", "anchors": ["hyperstate/lazy.py:LazySerializer", "hyperstate/lazy.py:LazyDeserializer", "hyperstate/serde.py:asdict", "hyperstate/serde.py:from_dict"]}
{"id": "C49", "title": "Tensor encoding round trip", "statement": "decode(encode(a)) is a for every numpy array (dtype, shape and bytes) and torch tensor (if torch is available); objects that are not tensors pass through unchanged.", "quantifier": "all arrays, all non-tensor objects", "why_tests_cant": "unbounded data", "anchors": ["hyperstate/msgpack_torch.py:encode", "hyperstate/msgpack_torch.py:decode"]}
{"id": "C50", "title": "help shows the field you name", "statement": "help(T, q) prints every field (at any dataclass depth) whose name is q, before any other; help(T) prints every field.", "quantifier": "all config types and queries", "why_tests_cant": "unbounded types and strings", "anchors": ["hyperstate/schema/help.py:help", "hyperstate/schema/help.py:find_fields", "hyperstate/schema/help.py:print_schema"]}
{"id": "C51", "title": "Field lookup", "statement": "An override key is accepted exactly when following its dot-separated names through nested (possibly Optional) dataclass fields leads to a declared field.", "quantifier": "all config types and keys", "why_tests_cant": "unbounded types and keys", "anchors": ["hyperstate/schema/types.py:Struct.find_field", "hyperstate/schema/types.py:materialize_type"]}
{"id": "C52", "title": "Command-line decisions", "statement": "stateful_command never runs the user function when --hps-info is given, when both --config and --resume-from are given or when an override lacks '='; otherwise it runs it with the first of --config/--resume-from as init path.", "quantifier": "all command lines", "why_tests_cant": "all combinations", "anchors": ["hyperstate/command.py:stateful_command", "hyperstate/command.py:command", "hyperstate/command.py:_check_overrides"]}
{"id": "C53", "title": "Every supported annotation survives dump/load", "statement": "Fields annotated Optional[Union[A, B]], Literal of any constants, or Union of scalars can be dumped and loaded back to the same value like the types in C01.", "quantifier": "all such annotations and values", "why_tests_cant": "the combinations of annotations are unbounded and none of these is tested", "anchors": ["hyperstate/serde.py:from_dict", "hyperstate/serde.py:_is_optional"]}
{"id": "C54", "title": "StateManager reads configs like load", "statement": "For every config class and file that load() accepts, a StateManager without overrides started on that file (or checkpoint) reads the same config and schedules.", "quantifier": "all config classes, files and checkpoint directories", "why_tests_cant": "the class annotations are arbitrary and the two code paths differ (overrides are always given by StateManager)", "anchors": ["hyperstate/hyperstate.py:StateManager._load_config", "hyperstate/hyperstate.py:load", "hyperstate/hyperstate.py:OverridesDeserializer"]}
{"id": "C55", "title": "Proposed fixes preserve what old files mean", "statement": "After applying the proposed fixes, an old file means with the new class what it meant with the old one: untouched fields keep their value, a changed default does not change what is loaded, a renamed field carries its value along, a changed enum value names the same variant, and a field that became a list holds the old value.", "quantifier": "all pairs of classes that the checker does not report as ERROR and all files of the old class", "why_tests_cant": "quantifies over all schema pairs and all data; the rules of different changes interact", "anchors": ["hyperstate/schema/schema_change.py:SchemaChange.proposed_fix", "hyperstate/schema/schema_checker.py:SchemaChecker", "hyperstate/hyperstate.py:_apply_upgrades"]}
{"id": "C56", "title": "help for a misspelt name", "statement": "help(T, q) for a name q that no field has shows at least one field (if T has any); the fields shown are the ones most similar to q, best first; fields that differ only in underscores, abbreviations and their long forms, and fields whose name contains q are always shown.", "quantifier": "all config types and queries", "why_tests_cant": "unbounded types and strings; depends on the ordering of all similarities", "anchors": ["hyperstate/schema/help.py:help", "hyperstate/schema/help.py:find_fields", "hyperstate/schema/schema_checker.py:name_similarity"]}
{"id": "C57", "title": "Mistakes on the command line are reported", "statement": "A command whose config cannot be loaded because of a mistake of the user (override without '=', unknown field, value of the wrong type, value that is not allowed, missing value) prints an error message that names the mistake, lists similar fields for unknown names, exits with status 1 and does not run the function.", "quantifier": "all config types, files and command lines", "why_tests_cant": "all combinations of types, overrides and files", "anchors": ["hyperstate/command.py:command", "hyperstate/command.py:stateful_command", "hyperstate/command.py:_check_overrides", "hyperstate/command.py:_print_config_exception"]}
{"id": "C58", "title": "A compatible check means that old files load after upgrading", "statement": "If check-schema, which upgrades the recorded schema with the class's rewrite rules and compares it with the class, says that the schema is compatible, then every complete config file that conforms to the recorded schema loads with the current class.", "quantifier": "all recorded schemas and versions, all current classes with any rewrite rules, and all files that conform to the recorded schema", "why_tests_cant": "quantifies over schema pairs, rule sequences and files; the rules act on the schema and on the files in two separate implementations", "anchors": ["hyperstate/schema/schema_checker.py:check_schema", "hyperstate/schema/schema_checker.py:SchemaChecker", "hyperstate/hyperstate.py:_apply_upgrades", "hyperstate/schema/versioned.py:VersionedDeserializer"]}
{"id": "C59", "title": "check-schema reports every difference between two schemas", "statement": "The report of the schema checker accounts for every difference between the two schemas it compares and contains nothing else: a value only one of them has is reported as added, removed or as one side of a rename (never twice), a value both have is reported if its type or default changed or the default was removed, and so are changed enum variants and literal values, each at the path of the value; and there is a report for every two schemas.", "quantifier": "all pairs of schemas with distinct names, nested to any depth", "why_tests_cant": "quantifies over pairs of schemas of unbounded depth; a difference overlooked in one combination of types would go unnoticed", "anchors": ["hyperstate/schema/schema_checker.py:SchemaChecker._find_changes", "hyperstate/schema/schema_checker.py:SchemaChecker._all_new", "hyperstate/schema/schema_checker.py:SchemaChecker._all_gone", "hyperstate/schema/schema_checker.py:SchemaChecker._find_renames"]}
{"id": "C60", "title": "Whatever was loaded can be dumped", "statement": "dump and dumps succeed for every config that load returned, whatever its file and overrides; in general they succeed for every object unless a dataclass in it has a field whose name starts with an underscore.", "quantifier": "all config types, files, overrides and values of any nesting", "why_tests_cant": "quantifies over all values and types; a type whose values load but fail to serialize is only found by trying it", "anchors": ["hyperstate/hyperstate.py:dump", "hyperstate/hyperstate.py:dumps", "hyperstate/serde.py:asdict"]}
{"id": "C61", "title": "elide_defaults leaves out exactly the values that equal their default", "statement": "dumps(config, elide_defaults=True) writes a field, at any depth, if and only if its value differs from the default of the field.", "quantifier": "all config types, defaults and values", "why_tests_cant": "quantifies over all values and defaults; equality in Python holds across types (1 == 1.0) and depends on how the value is serialized", "anchors": ["hyperstate/hyperstate.py:dumps", "hyperstate/hyperstate.py:ElideDefaults", "hyperstate/serde.py:asdict"]}
{"id": "C62", "title": "The deserialization context reaches user code", "statement": "Values registered with set_deserialize_ctx on the manager or on its state are passed to initial_state and to every deserialize call that follows: each call gets the value last registered for each key, and no other keys.", "quantifier": "all sequences of registrations and attribute reads, all states, checkpoints and user functions", "why_tests_cant": "which registrations a call sees depends on the order of registrations, the first access to the state and the attribute reads; tests try a few orders", "anchors": ["hyperstate/hyperstate.py:StateManager.set_deserialize_ctx", "hyperstate/hyperstate.py:StateManager.state", "hyperstate/lazy.py:Lazy.set_deserialize_ctx", "hyperstate/lazy.py:Lazy.__getattribute__"]}
{"id": "C63", "title": "Files of another version are not misread", "statement": "Loading a file whose version is not a number, or not one the class supports (newer than version()), raises instead of returning a config.", "quantifier": "all Versioned classes, rules and files", "why_tests_cant": "quantifies over all classes, rules and version values", "anchors": ["hyperstate/schema/versioned.py:Versioned._apply_upgrades", "hyperstate/schema/versioned.py:VersionedDeserializer"]}
{"id": "C64", "title": "Config and state are read once, and failures show", "statement": "A StateManager reads the initial config and the checkpoint at most once: after the first successful access the program works with the same config and state whatever happens to the files, and a failed access raises and is tried again. A program that goes on after an exception never works with a config whose schedules were not applied.", "quantifier": "all settings, checkpoint directories, file contents at each access, and sequences of sm.config, sm.state, assignments and sm.step()", "why_tests_cant": "sequences of accesses, failures in between and changes to the files are unbounded", "anchors": ["hyperstate/hyperstate.py:StateManager.config", "hyperstate/hyperstate.py:StateManager.state", "hyperstate/hyperstate.py:StateManager.step", "hyperstate/hyperstate.py:_apply_schedules"]}
{"id": "C65", "title": "Field descriptions come from the class", "statement": "The description help shows for a field is the one its class gives in its docstring, or, if it gives none, the one of a base class; a field nobody describes has none, and docstrings change nothing else in the schema.", "quantifier": "all classes, bases (multiple, nested) and docstrings, at every depth of a schema", "why_tests_cant": "inheritance graphs and docstrings are unbounded; tests use one class", "anchors": ["hyperstate/schema/types.py:_find_all_field_docs", "hyperstate/schema/types.py:materialize_type"]}
{"id": "C66", "title": "Documentation does not affect schema checks", "statement": "Adding, editing or removing docstrings changes nothing in what the schema checker reports: changes, severities, proposed upgrade rules and compatibility are the same.", "quantifier": "all pairs of schemas and all descriptions in them", "why_tests_cant": "schemas and descriptions are unbounded, and the comparisons in the checker involve equality of nested dataclasses", "anchors": ["hyperstate/schema/schema_checker.py:SchemaChecker", "hyperstate/schema/types.py:Field", "hyperstate/schema/schema_change.py:TypeChanged.proposed_fix", "hyperstate/schema/types.py:schema_from_namedtuple"]}
{"id": "C67", "title": "Proposed upgrade rules can be pasted", "statement": "The entry of upgrade_rules that check-schema prints is Python source: pasted into the class it evaluates to the version of the old schema and to the rules that the report proposes.", "quantifier": "all pairs of schemas, all proposed rules and all values in them (strings with quotes, backslashes, control characters; nested lists and dicts)", "why_tests_cant": "the text depends on the repr of arbitrary paths and default values; tests compare one report with a golden text", "anchors": ["hyperstate/schema/schema_checker.py:SchemaChecker.print_report", "hyperstate/schema/schema_change.py:SchemaChange.proposed_fix", "hyperstate/schema/rewrite_rule.py:RenameField", "hyperstate/schema/rewrite_rule.py:MapFieldValue"]}
{"id": "C68", "title": "Reports say what changed and where", "statement": "check-schema prints one line for each change, in order, followed by the verdict; every line tells the severity, the field (its full dotted path) and what changed.", "quantifier": "all pairs of schemas and all changes between them", "why_tests_cant": "schemas, values and changes are unbounded; tests compare a few golden texts", "anchors": ["hyperstate/schema/schema_change.py:SchemaChange.emit_diagnostic", "hyperstate/schema/schema_change.py:EnumVariantRenamed.diagnostic", "hyperstate/schema/schema_change.py:FieldAdded.diagnostic", "hyperstate/schema/schema_checker.py:SchemaChecker.print_report"]}
{"id": "C69", "title": "The rules that check-schema proposes settle its report", "statement": "check-schema compares a stored schema of version v with the class, reports no ERROR, and proposes rules and a version bump. Once the user has put exactly these rules and this version into the class, check-schema on the same stored schema says that it is compatible, proposes nothing more, and upgrade-schema rewrites the file.", "quantifier": "all stored schemas and all Versioned classes, any number and combination of changes", "why_tests_cant": "combinations of changes are unbounded, and the rules act on a schema that earlier rules have already changed; tests apply hand-written rules, one at a time", "anchors": ["hyperstate/schema/schema_checker.py:SchemaChecker.__init__", "hyperstate/schema/schema_checker.py:SchemaChecker.print_report", "hyperstate/schema/schema_checker.py:_upgrade_schema", "hyperstate/schema/versioned.py:_apply_schema_upgrades", "hyperstate/schema/schema_change.py:proposed_fix", "hyperstate/schema/rewrite_rule.py:apply_to_schema"]}
{"id": "C70", "title": "Placeholders of old and new checkpoints lead to the right file", "statement": "In a state file a Serializable field is <BLOB>, <blob:pickle> (both written by older versions) or <blob:msgpack>; anything else makes loading fail. The first access to the field reads, in the directory of the checkpoint, the file f, state.f.pickle or state.f.msgpack respectively, as the field's class; the first two are refused with RuntimeError unless UNSAFE_DESERIALIZE_PICKLE is set.", "quantifier": "all state classes without a version, all state files, Serializable or Optional attributes of the state, whatever the types and values of the other attributes", "why_tests_cant": "no test has a checkpoint of an older version; other attributes of any type are deserialized into the same table of pending files", "anchors": ["hyperstate/lazy.py:LazyDeserializer.deserialize", "hyperstate/lazy.py:Lazy.__getattribute__", "hyperstate/hyperstate.py:_typed_load"]}
{"id": "C71", "title": "Old config files survive any number of releases", "statement": "A config class goes through a series of releases; each time check-schema reports no ERROR, the proposed rules are pasted and the version is increased by one. A file written for any of the releases loads with the latest one, and every field has the value that follows from what the file said by carrying out the reported changes one after the other, even if field names are used again for other things.", "quantifier": "all config classes, all series of releases of any length, all files of any of the versions", "why_tests_cant": "series of releases and combinations of changes are unbounded; tests apply the rules of one class to one file", "anchors": ["hyperstate/schema/versioned.py:VersionedDeserializer.deserialize", "hyperstate/schema/versioned.py:Versioned._apply_upgrades", "hyperstate/schema/rewrite_rule.py:RewriteRule", "hyperstate/schema/schema_checker.py:SchemaChecker", "hyperstate/schema/schema_change.py:SchemaChange.proposed_fix"]}
{"id": "C72", "title": "A resumed run keeps the parts of the state it has not read yet", "statement": "After resuming, a program that reads and assigns attributes of the state, saves checkpoints and calls step sees an ordinary object: every attribute has the value assigned last, or else the one in the checkpoint, also if it is read for the first time after step has removed that checkpoint.", "quantifier": "all states, checkpoint directories and sequences of reads, assignments, saves and step calls, also after exceptions", "why_tests_cant": "the order of reads and removals of checkpoints is unbounded; tests resume once and read everything at once", "anchors": ["hyperstate/hyperstate.py:HyperState.step", "hyperstate/hyperstate.py:HyperState.checkpoint", "hyperstate/lazy.py:Lazy.__getattribute__", "hyperstate/lazy.py:LazyDeserializer.deserialize"]}
{"id": "C73", "title": "Processes may share a checkpoint directory", "statement": "Several processes of one run (a restarted job whose predecessor is still alive, say) use the same checkpoint directory, each with increasing keys. However their system calls interleave, and wherever they raise, die and start again, the newest checkpoint that ever became visible stays there with all its files and is the one a process resumes from; steps of one process do not make those of another fail.", "quantifier": "all numbers of processes, all interleavings of their system calls, all exceptions, deaths and restarts, all states", "why_tests_cant": "interleavings of system calls are unbounded and cannot be forced by a test; tests use one manager per directory", "anchors": ["hyperstate/hyperstate.py:StateManager.step", "hyperstate/hyperstate.py:StateManager.checkpoint_dir", "hyperstate/hyperstate.py:find_latest_checkpoint", "hyperstate/hyperstate.py:atomic_move"]}
{"id": "C74", "title": "Interruptions do not change a training run", "statement": "A training loop runs user code on the state (depending on config and state only) and calls step, again and again. However often its process is killed, at any system call of step or elsewhere, and started again on the same checkpoint directory, starting succeeds and the config, schedules and state it continues with (Serializable objects included) are exactly those of the run without interruptions after some number of iterations. No completed iteration is lost, and every kill repeats at most the iteration in progress.", "quantifier": "all user code, all sequences of iterations, kills (after any prefix of the system calls of step, on one file system or across two) and restarts, all configs with schedules, all states", "why_tests_cant": "the claim is about all crash points of all executions of unbounded length; a test fixes one schedule, one state and one crash point", "anchors": ["hyperstate/hyperstate.py:StateManager.step", "hyperstate/hyperstate.py:StateManager.checkpoint", "hyperstate/hyperstate.py:StateManager.checkpoint_dir", "hyperstate/hyperstate.py:StateManager._apply_schedules", "hyperstate/hyperstate.py:find_latest_checkpoint", "hyperstate/hyperstate.py:atomic_move", "hyperstate/lazy.py:Lazy.__getattribute__"]}
