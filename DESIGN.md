# Design

Formal model of cswinter/hyperstate (python, `/repo`) in Coq 8.16.1 and proofs of
the properties in `properties.jsonl`.  `MANIFEST.json` maps each property to theorems.

## Modelling decisions

* Python values are the inductive type `pyval`; class annotations are `ty`;
  schema descriptions (`hyperstate.schema.types`) are `sty`.  Exceptions are values
  (`res A := Ok a | Err e`).  In-place mutation becomes returning the new value.
* Python dicts are insertion-ordered association lists with string keys.
* ints are `Z`; floats are IEEE binary64 data (`SpecFloat.spec_float`); strings are
  Coq byte strings.
* External code is a record of oracles (`env`): `float(str)`, `pyron.loads` of an
  override text, `math.cos`, the iteration order of sets, and the table of classes.
  Theorems quantify over the oracles.  The RON text layer (`pyron.to_string` followed
  by `pyron.loads`) is the tree function `ron_view` / `ron_value`.
* The file system is modelled at the level of directory entries, with one
  micro-operation per system call that changes the checkpoint directory.

## Layout of `rocq/theories`

* Model (each definition cites the lines it models): `Base` `Value` (Python
  primitives), `Schema` `Rewrite` `Sched` `Types` `Asdict` `FromDict` `Manager` `Ckpt`
  `Share` `Lazy` `Session` `Run` `Loop` `Access` `Ctx` `Checker` `Docs` `HelpM` `Command` `Msgpack`.
* Specification, independent of the model functions: `Spec*`.
* Lemmas: `*Facts`, `RoundTrip`, `ElideLoad`, `LoadSound`, `OverrideSim`, `OverrideLoad`,
  `SetOrder`, `LoadProps`, `ResumeProps`, `SchedTree`, `SchedElide`, `UpgradeProps`,
  `FloatOps`, `FloatLerp`, `NamesFloat`.
* `Props*`: the theorems of `MANIFEST.json`, each followed by `Print Assumptions`, with
  examples that meet their hypotheses.

## Plan per property

| id | modelled | proof |
|----|----------|-------|
| C01 | `asdict`, `from_dict` with all deserializers | nested induction over types, `conforms` spec |
| C02 | enum branches of `asdict` / `from_dict` | exact characterisation, and a refutation of the unconditional claim |
| C03 | `ElideDefaults` | induction as C01, result related by a `same value` relation |
| C04 | `_try_create_defaults` | induction over types against a declarative `default_value` relation |
| C05 | `from_dict` with an arbitrary permutation of the set | `from_dict` computes the relation `denotes` (SpecLoad), which does not mention order |
| C06 | unknown-field branch | induction; nested `ignore_extra_fields` refuted |
| C07 | `from_dict` | induction; short tuples refuted |
| C08 | numeric branches | arithmetic on `spec_float`, real numbers through Flocq |
| C09-C13 | `OverridesDeserializer`, `find_field`, `materialize_type` | loading with overrides is simulated by loading the edited file; C10, C12, C13 refuted as stated |
| C14-C16 | `_apply_upgrades`, `VersionedDeserializer`, `VersionedSerializer` | induction over version ranges |
| C17-C23 | rewrite rules on trees | path algebra (`get` after `remove` / `insert`) |
| C24 | `_upgrade_config` | from C03/C05/C14 and the schedule facts of C37 |
| C25 | `apply_to_schema`, `_apply_schema_upgrades` | simulation: a file that `fits` a schema, upgraded, fits the upgraded schema; seven kinds of rule use refuted |
| C26, C27, C34 | `SchemaChecker`, severities, `schema_from_namedtuple` | induction over schema types; refutations where the code is unsound |
| C28 | `_find_changes` | severity INFO implies that each file accepted by the old class is accepted by the new one |
| C29, C55 | `proposed_fix`, `_apply_upgrades` | the rules of the report, applied in order, field by field; sub-configs by reduction to one level (a path becomes a field name, a file the table of its leaves); a refutation per excluded kind of change |
| C30 | `is_subtype` | induction with fuel, fuel shown sufficient |
| C31, C32 | `levenshtein`, `name_similarity` | dynamic program = minimum over edit scripts; float table shown exact |
| C33 | `_find_renames` | invariant of the loop: a matching, best first |
| C35, C36 | `PiecewiseFunction`, `_parse_schedule` | real-number instance and binary64 instance of one generic model |
| C37, C38 | schedule (de)serializers, `_apply_schedules` | induction over schedule trees |
| C39-C44 | directory model, `find_latest_checkpoint`, `step`, `checkpoint`, `atomic_move`, start-up | invariants over all histories and crash points |
| C45-C48 | `Lazy`, `LazySerializer`, `LazyDeserializer` | state machine over access sequences |
| C49 | `msgpack_torch`, `packb` / `unpackb` as trees, strided arrays | C order enumeration of indices; induction over objects |
| C50, C56 | `help`, `print_schema`, `find_fields` | induction over schemas; sorting by similarity |
| C51 | `find_field` | induction over schemas |
| C52, C57 | `command.py` | event traces; case analysis |
| C53 | as C01 | refutations beyond the supported annotations |
| C54 | `StateManager._load_config` against `load` | equality of the two deserializer stacks |
| C58 | `check_schema`, `apply_upgrades` on schema and file, `typed_load` | conforming files are accepted by the class a schema describes; C25 keeps upgraded files conforming; C28's argument from that class to the current one |
| C59 | `SchemaChecker._find_changes`, `_all_new`, `_all_gone`, `_find_renames` | induction on the new schema: the entries found are the local differences at all places compared; then the matching of C33 decides what becomes of added and removed entries |
| C60 | `asdict`, `ValueSerializer`s, `dump` | induction on the value: every step of the dump succeeds, and the only one that can fail is the namedtuple; loaded values conform to their type (C07), and conforming to a public class excludes private fields |
| C61 | `ElideDefaults.modify_dataclass_attrs`, `asdict` | the entries written for an instance are those `elide_filter` keeps; bare values are written as they are, so the comparison is between the value and the default |
| C62 | `StateManager.set_deserialize_ctx`, `StateManager.state`, `Lazy.set_deserialize_ctx`, `Lazy.__getattribute__` (Ctx.v) | invariant over programs of registrations and reads: the context of the manager before the first access, that of the state afterwards, holds the values last registered |
| C63 | `VersionedDeserializer`, `_apply_upgrades` | case analysis on the version |
| C64 | `StateManager.config`, `StateManager.state`, `StateManager.step`, `_apply_schedules` with its partial effects (Access.v) | the in-place application agrees with `apply_schedules`; induction over the program |
| C65 | `_find_all_field_docs`, `materialize_type` with descriptions (Docs.v) | induction on the class hierarchy; induction on the place in the schema |
| C66 | `SchemaChecker`, `is_subtype`, `TypeChanged.proposed_fix` on schemas that differ in descriptions | comparison commutes with erasing descriptions: equal types are subtypes of each other, and objects in the rename search are told apart by path |
| C67 | `print_report`, `repr` of rules and values (Render.v) | an independent reader of Python expressions (SpecRender.v) inverts the printer: induction on values, escapes checked for all 256 bytes |
| C68 | `emit_diagnostic`, `diagnostic` methods, `print_report` | the part after the last ": " and the first five characters are read back; splitting into lines |
| C69 | `_apply_schema_upgrades`, `apply_to_schema` of each rule, `SchemaChecker` (Checker.v, Rewrite.v) | invariant over the prefixes of the report: the field at each path has the type and default that the changes so far gave it, sections stay; then the second comparison by induction on the new schema |
| C70 | `LazyDeserializer.deserialize`, `Lazy.__getattribute__`, `from_dict` | loading at another path never changes the pending entry of a field: induction on types; then the loop over the fields is split at the field |
| C71 | `VersionedDeserializer.deserialize`, `_apply_upgrades`, the rules, `SchemaChecker` | induction over the releases: the file after one release is itself a file of the next version that loads with it (C29), and upgrading it first changes nothing |
| C72 | `HyperState.step`, `checkpoint`, `Lazy.__getattribute__` (Run.v) | invariant of the run: loaded attributes are those of the plain object, the others still have their files in the directory; dumping loads all of them before `shutil.move` |
| C73 | `StateManager.step`, `checkpoint_dir`, `find_latest_checkpoint`, `atomic_move` (Share.v) | transition system of processes, one action per system call; invariant: everything removed is below the newest checkpoint; witnesses for the two false parts |
| C74 | `StateManager.step`, `checkpoint`, `checkpoint_dir`, `Lazy.__getattribute__`, user code as programs (Loop.v) | invariant: directory holds the old or the new checkpoint (C39), the manager holds iteration k of the run in memory (C43, C72); schedules that agree at every path give the same config |
Where the faithful model contradicts the property, the full property is kept,
a theorem `..._refuted` exhibits a witness, and the strongest true part is proved
as `..._partial`.  Every hypothesis that is not in the English statement is justified by
such a witness or named in the manifest's note.

## Trusted base

1. Coq's kernel (8.16.1), including `vm_compute`, which examples and witnesses use.
2. The axioms listed below, all from the standard library's `Reals`.
3. The reading of the Python code recorded in the comments of the model files.
4. What is assumed about code outside the repository:
   * `pyron`: the tree read back from the text written is `ron_view` (configs: tuples
     become lists, structs become namedtuples or dicts as the caller asks) or `ron_value`
     (schemas).  Parsing of override texts is an oracle.
   * `float(str)`, `math.cos`: oracles (C08 states what it assumes of `float`).  IEEE
     operations of Python floats are `SpecFloat`'s operations.
   * `msgpack`: `pack` / `unpack` of Msgpack.v on trees, with the 64 bit and 32 bit limits.
   * numpy and torch: `tobytes`, `np.ndarray(buffer=...)`, `np.copy`, `dtype.str`,
     `Tensor.cpu().numpy()` and `from_numpy` as described in Msgpack.v.
   * the file system: `mkdir`, `rename`, creating and deleting one file are atomic; nothing
     else writes to the checkpoint directory (C44 shows what a foreign directory does;
     C73 has several processes).  `rename` onto a directory with files fails.
   * `argparse` and `click`: the namespace of parsed options is the input of the model.
   * `dataclasses`, `typing`, `enum`: a class is its list of annotated fields and defaults
     (`ty`); class names are unique.
   * user code is total: `version()`, `upgrade_rules()`, rule functions, `initial_state`,
     `Serializable.serialize` / `deserialize` are functions of their arguments, may raise,
     and have no side effects on hyperstate's objects.

### Modelled

| file | functions |
|------|-----------|
| `serde.py` | `asdict`, `from_dict`, `_try_create_defaults`, `loads`, `load`, `dump`, `dumps`, `is_optional`, `_qualified_name` |
| `hyperstate.py` | all of `StateManager`; `_apply_schedules`, `_typed_dump`, `_typed_load`, `dump(s)`, `load(s)`, `find_latest_checkpoint`, `OverridesDeserializer`, `ScheduleDeserializer`, `ScheduleSerializer`, `ElideDefaults`, `atomic_move` |
| `lazy.py` | `Lazy.__getattribute__`, `Lazy.set_deserialize_ctx`, `LazyDeserializer`, `LazySerializer` |
| `schedule.py` | all |
| `msgpack_torch.py` | all |
| `command.py` | all but `_parse_args` |
| `schema/types.py` | all |
| `schema/versioned.py`, `schema/rewrite_rule.py` | all |
| `schema/schema_change.py` | all; colours dropped |
| `schema/schema_checker.py` | all but the `click` wrappers and colours |
| `schema/help.py` | all; colours dropped |

### Not modelled

`blob()`, `_dict_to_cpu` (unused), `Versioned.minimum_version` (unused), the body of
`namedtuple_utils.remove_field` (it returns None, which is modelled), `__init__.py`'s patch of
`typing.get_origin`, the parsing of docstrings,
colours, argparse; non-string dict keys; subclassing between dataclasses; objects shared
between two places of a config; recursive dataclasses; non-ASCII case folding; the identity
shortcut of `==` on containers holding NaN; running out of memory or stack.

## Findings

Behaviour of the code that contradicts a property; each has a theorem with a witness.

* `C02_enum_refuted` (PropsSerde.v): an ordinary enum (RED = 1) is dumped but the dump cannot be loaded
* `C02_enum_swap_refuted` (PropsSerde.v): worse, A = "B", B = "A": the dump loads to the other member
* `C05_schedule_order_refuted` (PropsLoad.v): With schedules the order of fields does matter: the same two entries load in one order and raise KeyError in the other.
* `C06_ignore_nested_refuted` (PropsLoad.v): ... but unknown entries of nested sections are rejected all the same
* `C06_weak_unknown_refuted` (PropsLoad.v): ... and an unknown entry that looks like a weak reference is not rejected
* `C07_short_tuple_refuted` (PropsLoad.v): A tuple with too few items is accepted.
* `C08_numeral_refuted` (PropsNum.v): ... but beyond it the loaded number silently differs from the one in the file.
* `C10_others_unchanged_refuted` (PropsOverride.v): The exception is real: overriding opt.eps resets opt.lr from 7 to 3.
* `C12_other_texts_refuted` (PropsOverride.v): After a known override the other texts are accepted: b=maybe sets b to the value of the override before it.
* `C13_override_wins_refuted` (PropsOverride.v): Otherwise it may not: the file's value for the old name, renamed after the overrides were written, replaces the override learning_rate=7.
* `C16_version_zero_refuted` (PropsOverride.v): README.md:147 says a file without version is of version 0; it is not loaded, although the same file with version 0 is.
* `C16_no_file_refuted` (PropsOverride.v): Without a file no version is needed -- unless the Versioned class is not the config itself: then overriding a field of it fails.
* `C16_manager_refuted` (PropsSession.v): So an old file without version, which [load] rejects, is accepted by a manager, and here (with ignore_extra_fields) silently loses its learning rate, which it keeps when the file says "version: 0".
* `C17_rename_refuted` (PropsRewrite.v): The full claim is false of the code: renaming into a section that is [None] (an unset Optional) silently drops the value (rewrite_rule.py:229-230).
* `C21_two_default_rules_refuted` (PropsRewrite.v): Two default rules in sequence do make the absent sub-config appear: the second one finds the weakly inserted value and re-inserts it as a given one (rewrite_rule.py:97).
* `C22_check_value_refuted` (PropsRewrite.v): The full claim is false: with an unset (None) parent section the check crashes although the field is absent (rewrite_rule.py:204-212 has no test for None, unlike [_remove]).
* `C23_reject_values_refuted` (PropsRewrite.v)
* `C24_list_schedule_refuted` (PropsUpgrade.v): class Cfg: xs: List[float]. A schedule for an element of a list is replaced by its value at 0: the upgraded file has lost it.
* `C25_list_refuted` (PropsMirror.v): classes inside lists: the schema changes, files do not (rewrite_rule.py:27 "handle lists")
* `C25_optional_enum_refuted` (PropsMirror.v): optional enums: the values of files are mapped, those of the schema are not (rewrite_rule.py:68)
* `C25_rename_out_refuted` (PropsMirror.v): a field moved out of an optional section that the file leaves out is missing afterwards
* `C25_rename_into_refuted` (PropsMirror.v): a field moved into a section with a default that the file leaves out: the section is then there, without its other fields
* `C25_rename_onto_refuted` (PropsMirror.v): renaming onto a field that is still there: without the old field the file keeps the other one, which now has the wrong type
* `C25_add_default_refuted` (PropsMirror.v): AddDefault of a field that the old schema does not have, as check-schema proposes it for new fields: it gets the type that no value has, and no default (rewrite_rule.py:121-127)
* `C25_reject_values_refuted` (PropsMirror.v): RejectValues: the schema upgrade always fails (rewrite_rule.py:172 tests the wrong object), so check-schema fails as soon as a class has such a rule
* `C26_nan_refuted` (PropsChecker.v): A NaN default is reported as changed.
* `C26_tuple_refuted` (PropsChecker.v): A class with a tuple field cannot be compared with itself.
* `C26_subconfig_default_refuted` (PropsChecker.v): A class with a sub-config built by default: check-schema reports an incompatible change on the file just written, and upgrade-schema refuses to rewrite it.
* `C28_optional_refuted` (PropsCompat.v): A list of optional floats becomes an optional list of optional ints: compatible.
* `C28_empty_refuted` (PropsCompat.v): A field whose class has no fields is removed: no change is reported.
* `C28_enum_refuted` (PropsCompat.v): An enum variant disappears from one field and appears in another: reported as renamed.
* `C28_overflow_refuted` (PropsCompat.v): An int field becomes a float field: compatible, but 2^1024 no longer loads.
* `C29_reject_refuted` (PropsFix.v): A literal loses a value: the proposed RejectValues deletes the field of a file that has an allowed value.
* `C29_check_refuted` (PropsFix.v): A type becomes a literal: the proposed CheckValue rejects other values on purpose.
* `C29_wrap_default_refuted` (PropsFix.v): The field becomes a list and so does its default: the old default is put into the file after values were wrapped.
* `C29_wrap_none_refuted` (PropsFix.v): The inside of an Optional becomes a list: None becomes [None].
* `C29_enum_list_refuted` (PropsFix.v): The value of an enum variant changes in a list of enums.
* `C29_nested_default_refuted` (PropsFix.v): A default inside a sub-config is removed, and the file leaves the sub-config out.
* `C29_section_refuted` (PropsFix.v): A sub-config is removed: its fields are deleted but not the empty section.
* `C29_list_refuted` (PropsFix.v): A field is renamed in a class that is used in a list.
* `C29_narrower_refuted` (PropsFix.v): A field is matched with one of a narrower type (C30).
* `C30_option_refuted` (PropsSubtype.v): Optional[float] counts as a subtype of Optional[int].
* `C30_struct_refuted` (PropsSubtype.v): A dataclass counts as a subtype of one with narrower fields ...
* `C30_required_refuted` (PropsSubtype.v): ... and of one with more required fields.
* `C30_overflow_refuted` (PropsSubtype.v): int counts as a subtype of float, but 2^1024 is no float.
* `C34_tuple_refuted` (PropsChecker.v): A class with a tuple field: the dumped file cannot be read.
* `C34_subconfig_default_refuted` (PropsChecker.v): A class with a sub-config built by default: the default reads back as something else.
* `C35_step_refuted` (PropsSched.v): "step: 3@0 step 7@10" never becomes 7.
* `C35_single_point_refuted` (PropsSched.v): A schedule with a single breakpoint is accepted but has no value anywhere.
* `C35_python_between_refuted` (PropsSched.v): Exactly between is false: the constant schedule "step: 3.6@0 3.6@439" has the value 3.6000000000000005 at step 314.
* `C35_python_monotone_refuted` (PropsSched.v): Monotone is false too: "step: 1@0 3@1" has the value 2.646380814137342 at 0.8231904070686709 and 2.6463808141373417 at 0.823190407068671.
* `C37_deep_schedule_refuted` (PropsState.v): A checkpoint with a schedule three levels deep is written but cannot be loaded.
* `C37_misplaced_schedule_refuted` (PropsState.v): Or it is loaded and silently attached to another section of the same name: the field keeps its value at 0 whatever the state says.
* `C38_list_element_refuted` (PropsState.v): A schedule for an element of a list is accepted but never applied: the element keeps the value at 0 and the config gets a stray attribute.
* `C38_dict_entry_refuted` (PropsState.v): A schedule for an entry of a Dict field is accepted and then breaks every step.
* `C39_order_refuted` (PropsCkpt.v)
* `C40_long_numbers_refuted` (PropsCkpt.v)
* `C41_smaller_key_refuted` (PropsCkpt.v): A step whose key is smaller than the current checkpoint's, across file systems: if the process dies while the old checkpoint is removed, the new manager resumes from a partial one, although a complete new one exists.
* `C42_repeated_key_refuted` (PropsCkpt.v): A completed step after which there is no checkpoint at all.
* `C43_config_before_state_refuted` (PropsSession.v): The config alone, before the state is first accessed, has the values of the schedules at 0, not those of the checkpoint.
* `C43_changed_field_refuted` (PropsSession.v): A field that was overridden and then changed by the program is not restored: the override wins over the checkpoint.
* `C44_foreign_refuted` (PropsSession.v): A numbered directory of another name with a larger number hides the checkpoint.
* `C46_attributes_refuted` (PropsLazy.v)
* `C48_list_refuted` (PropsLazy.v)
* `C48_nested_refuted` (PropsLazy.v)
* `C48_dict_refuted` (PropsLazy.v)
* `C49_objects_refuted` (PropsMsgpack.v): arrays of Python objects are encoded as addresses, and cannot be decoded
* `C49_records_refuted` (PropsMsgpack.v): arrays of records come back as arrays of raw bytes, without an error
* `C49_grad_refuted` (PropsMsgpack.v): a tensor that requires grad, such as the parameters of a model, cannot be encoded
* `C49_impostor_refuted` (PropsMsgpack.v): a dict that is not a tensor is taken for one if it has the four keys
* `C49_large_refuted` (PropsMsgpack.v): an array of 4 GiB or more can be encoded but not written
* `C50_optional_refuted` (PropsHelp.v): C50 refuted for the fields of an Optional section: [other.lr] exists, is listed by [help(T)], but [help(T, "lr")] does not show it
* `C53_optional_union_refuted` (PropsSerde.v): ** C53 Outside the storable types the round trip is false of the code. [Optional[Union[A, B]]] is [Union[A, B, None]] in Python, which hyperstate does not treat as optional: an unset field cannot be loaded.
* `C53_literal_refuted` (PropsSerde.v): A Literal whose constants Python's typing module does not accept as type arguments (text such as "a b"; integers up to Python 3.10) cannot be loaded.
* `C53_scalar_union_refuted` (PropsSerde.v): A Union of str and float: the text "7" comes back as the number 7.0.
* `C54_same_as_load_refuted` (PropsSession.v)
* `C55_exchange_refuted` (PropsFix.v): Two variants of an enum exchange their values: no error, but the file now means the other variant, because the two proposed rules undo each other.
* `C56_contains_refuted` (PropsHelp.v): C56 refuted: a field whose name contains the query may be left out, although the loop makes an exception for such fields: a more similar name that does not contain it stops the listing first
* `C57_status_refuted` (PropsCommand.v): C57 refuted: an invalid command line can end with exit status 0
* `C57_mistakes_refuted` (PropsCommand.v): C57 refuted: a value that is not one of an enum's, a required value that is missing, and a misspelt truth value are not reported: the exception is passed on
* `C59_tuple_refuted` (PropsReport.v): Adding a field to a class with a tuple: no report, an error instead.
* `C59_enum_refuted` (PropsReport.v): A variant that an enum lost is not reported at its field if another enum got one with a similar name.
* `C60_private_refuted` (PropsDump.v): class C: _seed: int. It loads but cannot be dumped.
* `C60_schedule_refuted` (PropsDump.v): class Cfg: d: Dict[str, float]. A file with a schedule for key "a" and a value for key "a.b" loads, but can neither be dumped nor upgraded.
* `C61_enum_refuted` (PropsDump.v): class Cfg: act: Act = Act.RELU. The default is written nevertheless.
* `C61_section_refuted` (PropsDump.v): class Cfg: opt: Opt = Opt(). A default sub-config leaves an empty section behind.
* `C62_late_refuted` (PropsCtx.v): What the manager is told after the state was loaded does not reach the attributes that are deserialized later.
* `C62_initial_context_refuted` (PropsCtx.v): A context that [initial_state] sets on the state it returns is discarded.
* `C63_newer_refuted` (PropsOverride.v): A file of a newer version than the class is read as one of the current version. (This is so for all of them: C14_current_version.)
* `C64_silent_refuted` (PropsAccess.v): A program that goes on after the exception of the first access works with a config that is not up to date, without another exception: the key of the second schedule is misspelt.
* `C65_override_refuted` (PropsDocs.v): A class that describes an inherited field anew does not get its own description, but that of the base class.
* `C66_fixes_refuted` (PropsDocs.v): When an optional section becomes a list of such sections, the rule that wraps the value in a list is proposed if the class has no docstring; with a docstring the change is an error without rule, because the schema file has no descriptions.
* `C67_list_refuted` (PropsRender.v): A field becomes a list: the entry is not Python source.
* `C67_nan_refuted` (PropsRender.v): The default was NaN: it is printed as the name [nan].
* `C67_enum_refuted` (PropsRender.v): The new default is a list of enum members: they are printed as [<Color.RED: 1>].
* `C67_version_refuted` (PropsRender.v): The old class had no version: the entry has the key [None], not 0.
* `C68_default_refuted` (PropsRender.v): A new field that has a default is reported as one that has none.
* `C68_variant_refuted` (PropsRender.v): The old name of a renamed enum variant is not printed: two different changes give the same report.
* `C68_value_refuted` (PropsRender.v): Values are printed with [str]: a default that changes from 1 to "1" "changed from 1 to 1".
* `C69_default_removed_refuted` (PropsResolve.v): A default is removed: the proposed AddDefault does not change the schema of a field that has a default, so it is proposed again.
* `C69_wrap_refuted` (PropsResolve.v): A value becomes a list: the proposed MapFieldValue does not change the type.
* `C69_literal_refuted` (PropsResolve.v): A literal loses a value: the proposed RejectValues cannot be applied to any schema.
* `C69_rename_refuted` (PropsResolve.v): A field with a Tuple, Dict or Union type is renamed: it can be compared only as long as the names differ. Stored schemas cannot have such types (check-schema raises ValueError), but a SchemaChecker can be made from two classes.
* `C69_enum_inside_refuted` (PropsResolve.v): The value of a variant changes in an enum inside Optional: the proposed MapFieldValue changes enums only.
* `C69_enum_swap_refuted` (PropsResolve.v): Two variants exchange their values: the two proposed rules, applied one after the other, give both the same value.
* `C69_check_inside_refuted` (PropsResolve.v): The elements of a list become literals: the proposed CheckValue makes the whole field a literal, and the next rule proposed puts the lists of files into lists.
* `C72_same_key_refuted` (PropsRun.v): Calling [step] right after resuming, before the key has changed, loses whatever was not read: the checkpoint is removed, no other is written, and the network is gone.
* `C73_steps_succeed_refuted` (PropsShare.v): Sharing is not harmless: a process whose last checkpoint another one removed is in the middle of a step, and that step cannot succeed any more (C73_gone_raises).
* `C73_busy_start_refuted` (PropsShare.v): Nor is starting while another process writes: a process that lists the directory when a complete checkpoint is there can find none, although at every moment there is one.

## Axioms per theorem

`Print Assumptions` was run on each of the 315 theorems of `MANIFEST.json` (it is also run in the `Props*.v` files themselves).

Axioms `ClassicalDedekindReals.sig_forall_dec`, `ClassicalDedekindReals.sig_not_dec`, `Classical_Prop.classic`, `FunctionalExtensionality.functional_extensionality_dep` (all from the standard library, through `Reals`):

`C08_float_fields`, `C08_accepted`, `C08_numeral_partial`, `C31_least_cost`, `C31_symmetric`, `C31_zero_iff_equal`, `C31_bound`, `C32_symmetric`, `C32_equal`, `C32_range`, `C35_python_breakpoints`, `C35_python_inside_partial`, `C35_python_between_refuted`, `C35_python_monotone_refuted`, `C38_values`, `C50_query_partial`, `C56_never_empty`, `C56_order`, `C56_most_similar`, `C56_alike`, `C56_worth`, `C56_ends`.

Axioms `ClassicalDedekindReals.sig_forall_dec`, `ClassicalDedekindReals.sig_not_dec`, `FunctionalExtensionality.functional_extensionality_dep` (all from the standard library, through `Reals`):

`C35_values_partial`, `C35_all_interpolators`, `C35_between_and_monotone`, `C35_step_refuted`, `C35_single_point_refuted`.

Axioms `ClassicalDedekindReals.sig_forall_dec`, `FunctionalExtensionality.functional_extensionality_dep` (all from the standard library, through `Reals`):

`C08_int_fields`, `C32_constant`.

Closed under the global context (no axioms):

`C01_round_trip`, `C01_round_trip_file`, `C02_enum_round_trip_iff`, `C02_enum_refuted`, `C02_enum_swap_refuted`, `C03_elide_round_trip`, `C04_default_construction`, `C05_loads_meaning`, `C05_given_and_default`, `C05_order_independent_partial`, `C05_set_order_independent`, `C05_schedule_order_refuted`, `C06_unknown_rejected`, `C06_unknown_error`, `C06_ignored_partial`, `C06_ignore_nested_refuted`, `C06_weak_unknown_refuted`, `C07_loaded_values_conform_partial`, `C07_short_tuple_refuted`, `C08_numeral_refuted`, `C09_overrides_are_edits`, `C09_override_sets_field`, `C10_others_unchanged_partial`, `C10_others_unchanged_refuted`, `C11_never_loaded`, `C11_unknown_reported`, `C11_malformed`, `C12_bool_texts`, `C12_other_texts_partial`, `C12_other_texts_refuted`, `C13_override_wins_partial`, `C13_override_wins_refuted`, `C14_load_upgrades`, `C14_load_needs_upgrade`, `C14_upgrades_compose`, `C14_current_version`, `C15_dumps_version`, `C15_config_dict_version`, `C16_missing_version_rejected`, `C16_nested_version_required`, `C16_version_zero_refuted`, `C16_no_file_refuted`, `C16_manager_assumes_current`, `C16_manager_refuted`, `C17_rename_present_partial`, `C17_rename_absent`, `C17_rename_refuted`, `C18_delete_removes_one`, `C19_map_present`, `C19_map_error`, `C19_map_absent`, `C20_change_default_present`, `C20_change_default_absent`, `C21_add_default_sections`, `C21_change_default_sections_partial`, `C21_two_default_rules_refuted`, `C22_check_value_partial`, `C22_check_value_pure`, `C22_check_value_refuted`, `C23_reject_values_partial`, `C23_reject_values_refuted`, `C24_upgrade_config_partial`, `C24_only_loadable_files`, `C24_dry_run`, `C24_list_schedule_refuted`, `C25_rule_partial`, `C25_upgrades_partial`, `C25_runs_partial`, `C25_list_refuted`, `C25_optional_enum_refuted`, `C25_rename_out_refuted`, `C25_rename_into_refuted`, `C25_rename_onto_refuted`, `C25_add_default_refuted`, `C25_reject_values_refuted`, `C26_same_partial`, `C26_dumped_partial`, `C26_nan_refuted`, `C26_tuple_refuted`, `C26_subconfig_default_refuted`, `C27_worst`, `C27_info_iff`, `C27_fixes`, `C27_upgrade_schema`, `C28_compatible_partial`, `C28_check_schema_partial`, `C28_optional_refuted`, `C28_empty_refuted`, `C28_enum_refuted`, `C28_overflow_refuted`, `C29_fixes_partial`, `C29_check_schema_partial`, `C29_nested_partial`, `C29_nested_check_schema_partial`, `C29_reject_refuted`, `C29_check_refuted`, `C29_wrap_default_refuted`, `C29_wrap_none_refuted`, `C29_enum_list_refuted`, `C29_nested_default_refuted`, `C29_section_refuted`, `C29_list_refuted`, `C29_narrower_refuted`, `C30_sound_partial`, `C30_fuel`, `C30_option_refuted`, `C30_struct_refuted`, `C30_required_refuted`, `C30_overflow_refuted`, `C33_matching`, `C33_any_changes`, `C33_schemas_of_classes`, `C34_round_trip_partial`, `C34_readable_iff`, `C34_tuple_refuted`, `C34_subconfig_default_refuted`, `C36_schedule_syntax`, `C36_others_rejected`, `C37_file_schedules_partial`, `C37_dump_texts`, `C37_schedules_survive_partial`, `C37_deep_schedule_refuted`, `C37_misplaced_schedule_refuted`, `C38_scheduled_fields_up_to_date`, `C38_update_succeeds`, `C38_list_element_refuted`, `C38_dict_entry_refuted`, `C39_finds_greatest`, `C39_order_partial`, `C39_number_any_order`, `C39_order_refuted`, `C40_recognised_partial`, `C40_long_numbers_misread`, `C40_long_numbers_refuted`, `C41_crash_safe_partial`, `C41_never_none_partial`, `C41_smaller_key_refuted`, `C42_checkpoint_exists_partial`, `C42_history_partial`, `C42_repeated_key_removes`, `C42_then_steps_raise`, `C42_repeated_key_refuted`, `C43_restart_partial`, `C43_after_step_partial`, `C43_obeyed_partial`, `C43_obeyed_schedules_partial`, `C43_config_before_state_refuted`, `C43_changed_field_refuted`, `C44_checkpoint_wins`, `C44_history_partial`, `C44_no_checkpoint`, `C44_init_path`, `C44_foreign_refuted`, `C45_first_access`, `C45_read_once`, `C45_unread`, `C45_other_fields`, `C45_failed_access`, `C46_attributes_partial`, `C46_assignment_lost`, `C46_attributes_refuted`, `C47_no_unpickling`, `C47_pickle_raises`, `C48_blobs_found_partial`, `C48_list_refuted`, `C48_nested_refuted`, `C48_dict_refuted`, `C49_array_partial`, `C49_tensor_partial`, `C49_encode_others`, `C49_decode_others`, `C49_file`, `C49_objects_refuted`, `C49_records_refuted`, `C49_grad_refuted`, `C49_impostor_refuted`, `C49_readonly`, `C49_large_refuted`, `C50_listing`, `C50_query_lines`, `C50_query_section`, `C50_optional_refuted`, `C51_field_lookup`, `C51_accepted`, `C52_stateful_runs`, `C52_stateful_never`, `C52_stateful_exits`, `C52_command_runs`, `C52_command_never`, `C52_command_exits`, `C53_optional_union_refuted`, `C53_literal_refuted`, `C53_scalar_union_refuted`, `C54_same_as_load_partial`, `C54_rejected`, `C54_same_as_load_refuted`, `C55_values_partial`, `C55_nested_values_partial`, `C55_exchange_refuted`, `C56_contains_refuted`, `C57_malformed`, `C57_reported`, `C57_unknown_fields`, `C57_stateful`, `C57_others_raised`, `C57_status_refuted`, `C57_mistakes_refuted`, `C58_conforming_partial`, `C58_check_schema_partial`, `C59_found`, `C59_report_partial`, `C59_values`, `C59_succeeds_iff`, `C59_tuple_refuted`, `C59_enum_refuted`, `C60_dump_iff`, `C60_dump_elided`, `C60_loaded_partial`, `C60_private_refuted`, `C60_schedule_refuted`, `C61_left_out_partial`, `C61_written_partial`, `C61_enum_refuted`, `C61_section_refuted`, `C62_context_partial`, `C62_all_given`, `C62_first_read`, `C62_initial_once`, `C62_late_refuted`, `C62_initial_context_refuted`, `C63_malformed_rejected`, `C63_misplaced_rules`, `C63_newer_refuted`, `C64_read_once`, `C64_config_once`, `C64_config_fails`, `C64_state_fails`, `C64_started`, `C64_schedule_error`, `C64_silent_refuted`, `C65_description`, `C65_only_descriptions`, `C65_override_refuted`, `C66_changes`, `C66_fixes_partial`, `C66_files`, `C66_fixes_refuted`, `C67_paste_partial`, `C67_function`, `C67_list_refuted`, `C67_nan_refuted`, `C67_enum_refuted`, `C67_version_refuted`, `C68_lines_partial`, `C68_default_refuted`, `C68_variant_refuted`, `C68_value_refuted`, `C69_check_schema_partial`, `C69_rules_partial`, `C69_default_removed_refuted`, `C69_wrap_refuted`, `C69_literal_refuted`, `C69_rename_refuted`, `C69_enum_inside_refuted`, `C69_enum_swap_refuted`, `C69_check_inside_refuted`, `C70_placeholder`, `C70_access`, `C71_history_partial`, `C71_kept_partial`, `C71_nested_partial`, `C71_nested_kept_partial`, `C72_plain_partial`, `C72_resumed_partial`, `C72_detached`, `C72_same_key_refuted`, `C73_newest_survives_partial`, `C73_lone_start_partial`, `C73_gone_raises`, `C73_steps_succeed_refuted`, `C73_busy_start_refuted`, `C74_run_partial`, `C74_same_partial`, `C74_starts_partial`, `C74_goes_on_partial`, `C74_growing_key_partial`.

## Tests against wrong programs

`seeded/LOG.jsonl` lists edits of the model, made in a scratch copy, with the theorems that
failed.  "Blocked" theorems are those that could not be checked because a lemma they need
failed.  Where a theorem survived although the claim was false, it was tightened; the entry
says so.
