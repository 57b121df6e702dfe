# A Rocq model of grafana/thema

The model is plain Gallina over the Coq 8.16.1 standard library, in
`rocq/theories`. Each definition cites the file and lines in `/repo` it models
and says where it simplifies. Proofs live in separate files. The statements for
a reader are in the `Properties*.v` files: one theorem per claim, each followed
by `Print Assumptions` and by an `Example` that shows a concrete case meeting
its hypotheses.

## Conventions

- Go `string`/`[]byte` = Coq `string` (bytes). Go `uint` version numbers = `N`;
  wrap-around at 2^64 is explicit where the code adds or subtracts.
- A Go call has an outcome `Ok a | Err e | Panic | OutOfFuel`. A Go loop without an
  evident bound is run with fuel; `OutOfFuel` is a separate outcome, and
  non-termination is stated as "OutOfFuel for every fuel".
- A Go `error` is a value of type `err` carrying the sentinel errors it is
  marked with (`errors.Is`) and, where the claim is about it, its text.
- The CUE evaluator is not part of the repository. Two accounts of it are used.
  Where thema only passes values around (binding, walking, translation, muxes,
  CLI), the model takes every answer of CUE from a record `evaluator` (Lineage.v)
  that the theorems quantify over: they hold for all evaluators, and what they
  need of one is a hypothesis. Where the claim depends on what CUE values mean
  (C10, C33, C34, C46, C47, C75 and later), `CueFrag.v` defines a fragment of CUE
  values with the operations of the CUE Go API that thema calls.
- External functions such as codecs, Go lens functions, the OpenAPI encoder of CUE,
  `strings.Title` and `goimports` are arguments of the definitions.
- Refuted claims. Several documented claims are false of the code. For those there
  is a theorem `..._refuted` (a witness in the faithful model) and, where there is
  a useful true restriction or an exact description of the actual behaviour, a
  theorem `..._partial`. The status in MANIFEST.json is then `partial`.

## Files

Model (code of /repo): Prelude, Version, Search, Strings, ValidateErr, Native, Split,
Lineage, Translate, Vmux, Paths, Util, Rewrite, Locks, JSchema, Oapi, Cli, Gocode,
CueFrag, Compat, Assign, Hydrate, CueEval (the evaluator of Lineage.v on the fragment),
Load, CliGen, Init, CueAst, GenName, GenType, GoJson, GoComment, TypeScript, GenFile, Join, Traverse.
Specifications that are no code: CueSem, AssignSem, HydrateSem, JSchemaSem,
CueEvalSem, GenTypeSpec, GenUnionSpec, GoJsonSpec, JoinSem, and
the first part of several `*Proofs.v` files. Toy: a small evaluator used for
non-vacuity and as witness. `*Proofs.v`, `*Facts.v`: proofs. `Properties*.v`:
the theorems.

## Properties: what is modelled, how it is proved

| id | status | what is modelled | how it is proved |
|----|--------|------------------|------------------|
| C01 Version ordering is the lexicographic strict total order | proved | Version.v: `Less` of surface.go, `_cmpSV` of lineage.cue | case analysis on pairs, lia; equivalence with the lexicographic order stated on numbers. Theorems `C01_…`: `version_order`. |
| C02 Version strings round-trip | proved | Version.v: `String`, `ParseSyntacticVersion`, `strings.Split`, `strconv.ParseUint(_,10,32)` on bytes | induction on digit strings; both round trips. Theorems `C02_…`: `version_strings`. |
| C03 Every version that a lineage can hold can be named on the command line | partial | same | witness with a number of 2^32; restriction by C02. Theorems `C03_…`: `every_version_nameable_refuted`, `every_version_nameable_partial`. Refuted for numbers of 2^32 and more (ParseUint with 32 bits); proved for smaller ones. |
| C04 Binary search over versions finds the first not-smaller version | proved | Search.v: the loop of `sort.Search`, `searchSynv` with fuel | loop invariant. Theorems `C04_…`: `version_search`. |
| C05 Lineage.Schema finds exactly the declared versions | proved | Lineage.v: `BindLineage`, `Schema` | invariant of binding (sorted), then C04. Theorems `C05_…`: `schema_lookup`, `schema_or_panic`. |
| C06 Schema versions in a bound lineage strictly increase | partial | Lineage.v: `checkSchemasOrder`, `checkGoValidity` | witness; induction over the list. Theorems `C06_…`: `strictly_increasing_refuted`, `non_decreasing_partial`. Refuted: equal versions are accepted. Non-decreasing order is proved. |
| C07 Schema versions in a bound lineage are numbered consecutively from 0.0 | partial | same | witness. Theorems `C07_…`: `consecutive_refuted`. Refuted: neither the first version nor the steps are checked. Only non-decreasing order holds (C06). |
| C08 Bind-time compatibility rule | proved | Lineage.v: the compatibility loop of `BindLineage` | induction over the schema list, both directions. Theorems `C08_…`: `compatibility_rule`, `error_kind`. |
| C09 Old data stays valid within a major version | proved | same, the check as a relation | induction over the chain. Theorems `C09_…`: `old_data_stays_valid`. Soundness of the compatibility check for the data at hand is a hypothesis; see C10 for the check itself. |
| C10 The compatibility check guarantees that old data stays valid | partial | CueFrag.v, Compat.v: `ThemaCompatible` on CUE values | two witnesses; structural induction on values with the membership semantics of CueSem.v. Theorems `C10_…`: `default_dropped_refuted`, `ambiguous_refuted`, `membership_partial`, `sequence_partial`, `completed_partial`, `valid_partial`. Refuted: a default may be dropped or become ambiguous, so old data without the field no longer validates. Proved for complete data, and for all data when every filled field stays filled. |
| C11 Successor and Predecessor walk the lineage | proved | Lineage.v: `Successor`, `Predecessor` | index arithmetic on strictly increasing lists. Theorems `C11_…`: `neighbours`. |
| C12 Walking any bound lineage terminates and never panics | partial | same; WalkProofs.v: repeated calls | witnesses (duplicate versions; first version not 0.0); exact behaviour; WalkDupProofs.v: the walk ends iff no version but the largest is repeated, induction on the schemas left. Theorems `C12_…`: `walk_terminates_refuted`, `successor_partial`, `predecessor_partial`, `walk_partial`. Refuted: duplicate versions make the walk endless, a first version other than 0.0 makes Predecessor panic. Exact behaviour of both, and of the walk, on every bound lineage is proved. |
| C13 LatestInMajor returns the newest schema of the same major | partial | Lineage.v: `LatestInMajor`, `LatestVersionInSequence` | witness; exact behaviour. Theorems `C13_…`: `latest_in_major_refuted`, `latest_in_major_partial`. Refuted: LatestInMajor returns the first schema of the next major or panics. Exact behaviour proved. |
| C14 Latest, First and All are consistent | proved | Lineage.v: `First`, `Latest`, `All`, `LatestVersion` | binding invariant. Theorems `C14_…`: `first_latest_all`. |
| C15 ValidateAny picks the oldest validating schema | proved | Lineage.v: `ValidateAny` with fuel | induction on the remaining schemas. Theorems `C15_…`: `validate_any`. Hypothesis: composing the validation message does not panic (see C38). |
| C16 ValidateAny terminates on every bound lineage | partial | same | witness: no fuel is enough; WalkDupProofs.v: exact result on every bound lineage, induction on the schemas left. Theorems `C16_…`: `validate_any_total_refuted`, `exact_partial`. Refuted for lineages with duplicate versions. Proved: what it does on every bound lineage, and so exactly when it does not end. |
| C17 Go lenses must be exactly the entailed set | proved | Lineage.v: `checkGoLensCompleteness`, maps as association lists | set equality, both directions. Theorems `C17_…`: `go_lenses_exact`. |
| C18 Diagnostics for erroneous Go lenses name the right reason | partial | same, error texts | witness; exact texts. Theorems `C18_…`: `reasons_refuted`, `reasons_partial`. Refuted: the two explanations for forward lenses are swapped. Absence of panics and the exact explanation in every case are proved. |
| C19 Go translation reaches exactly the requested version | proved | Translate.v: `translateGo` | induction on the distance. Theorems `C19_…`: `go_translation`. For mappers that return Instances of the lineage itself; others are the subject of C21. |
| C20 Forward Go translation within a major version changes nothing but the version | proved | same | induction. Theorems `C20_…`: `go_minor_unchanged`. |
| C21 Go lens results belong to the lineage and are valid for the target | partial | same | witness; induction with an invariant on mapper results. Theorems `C21_…`: `go_result_valid_refuted`, `go_result_valid_partial`. Refuted: only the version of a mapper result is compared. Holds when mappers return conforming Instances of the lineage. |
| C22 Declared CUE lenses are in order | proved | Lineage.v: `checkLensesOrder` | induction. Theorems `C22_…`: `cue_lens_order`. |
| C23 CUE lenses are complete | partial | same | witness. Theorems `C23_…`: `cue_lens_completeness_refuted`. Refuted: CUE lenses are neither checked for completeness nor for duplicates; only their order is (C22). |
| C24 Native position of a version is right up to major 2 | proved | Native.v: `_pos`, `_counts`, `_basis`, `_flatidx` of lineage.cue | arithmetic on dense lists. Theorems `C24_…`: `native_positions`, `counts`. Accepting the lineage: lists shorter than 2^64, as any Go slice. |
| C25 Native position of a version is right for every lineage | partial | same | witness with four majors; sums of positions grow faster than positions. Theorems `C25_…`: `native_positions_refuted`, `every_position`, `single_count_refuted`. Refuted from four majors on, and for _counts with a single schema; C24 is the true restriction. C25_every_position: from major 3 on every position is too small, and a lineage with a major 3 is rejected if major 2 has fewer versions than major 0. |
| C26 CUE translation goes through exactly the adjacent versions | proved | Translate.v: `#Translate` of translate.cue, `Instance.Translate` | induction over the steps. Theorems `C26_…`: `cue_translation`, `lens_versions`, `stops_short`, `four_majors_fail`. C26_stops_short: from majors 0-2 up into major 3 or more the lenses are applied only up to a schema before the target; C26_four_majors_fail is a case. |
| C27 A successful CUE translation yields valid data for the target schema | proved | same | induction. Theorems `C27_…`: `cue_result_valid`. |
| C28 Every translation error is an ErrInvalidLens | partial | same, error marks | witnesses; case analysis. Theorems `C28_…`: `errors_refuted`, `errors_partial`. Refuted for both kinds of lenses; exact marks for CUE lenses are proved. |
| C29 Lacunas emitted by lenses reach the caller | partial | same; `step_lacunas`: the step selects `lacuna` from each emitted #Lacuna, which has no such field | witness; case analysis; a lens that emits ends the translation whichever way it is met, by composing translations. Theorems `C29_…`: `emitted_partial`, `lacunas_refuted`, `lacunas_partial`, `silent_partial`. Refuted: a lens that emits a lacuna makes the whole translation fail with ErrInvalidLens, since the step selects a field the closed #Lacuna does not have; the lacunas returned are always none, and a translation that succeeds went through lenses that emitted none. |
| C30 Translate and AsSuccessor/AsPredecessor need an existing neighbour or target | proved | same; `AsSuccessor`, `AsPredecessor` | case analysis. Theorems `C30_…`: `translate_total`, `neighbours_total`. |
| C31 Version multiplexing: accept every version, see one | proved | Vmux.v: `NewUntypedMux` | search as in C15 followed by translation. Theorems `C31_…`: `untyped_mux`, `spec_determines`, `result_at_target`, `needs_zero`. C31_needs_zero shows that the hypothesis on 0.0 is needed. |
| C32 Typed, value and byte muxes agree with the untyped mux | proved | Vmux.v: `NewTypedMux`, `NewValueMux`, `NewByteMux` | equations with the untyped mux. Theorems `C32_…`: `typed_mux`, `byte_mux`, `value_mux`, `typed_panics`. C32_typed_panics shows that the hypothesis on lenses is needed. |
| C33 Hydrate fills defaults and keeps the instance valid | partial | Hydrate.v: `doHydrate`, `getBranch`, `Instance.Hydrate` on CueFrag.v values | witnesses; unification with data agrees with evaluation (HydrateProofs.v, UnifyProofs.v), then induction on the schema (HydrateDeep.v). Theorems `C33_…`: `exact_partial`, `never_valid`, `refuted`, `conflict_refuted`, `panic_refuted`, `names_partial`, `body_partial`, `pattern_refuted`, `no_error`, `no_branch_partial`. Refuted: Hydrate walks the #SchemaDef value and not the schema body, with arguments swapped in the recursion. C33_exact_partial says what it does to data without the labels version, schema, examples; C33_names_partial says what it does to any data that does not conflict with the definition; C33_body_partial says what doHydrate would do on a schema body of any depth, C33_pattern_refuted that patterns are then left out. Missing: disjunctions of structs or lists. |
| C34 Dehydrate removes defaults and nothing else | partial | Hydrate.v: `doDehydrate`, `getDefault`, `isCueValueEqual`, `Instance.Dehydrate` | witnesses; structural induction with the relation `trims` of HydrateSem.v. Theorems `C34_…`: `exact_partial`, `refuted`, `changes_refuted`, `body_partial`, `body_exact_partial`, `no_error`, `prefix_refuted`, `optional_refuted`. Refuted: Dehydrate walks the #SchemaDef value and not the schema body. C34_exact_partial: it is the identity on data without the labels version, schema, examples. C34_body_partial says what doDehydrate does on a schema body with scalar disjunctions and plain lists; outside of that it changes values (C34_prefix_refuted) or loses optional ones (C34_optional_refuted). |
| C35 IsAppendOnly accepts exactly schema-preserving extensions | proved | Lineage.v: `IsAppendOnly` | induction on both lists. Theorems `C35_…`: `append_only`, `append_only_order`. |
| C36 IsAppendOnly protects everything published | partial | same | witness. Theorems `C36_…`: `published_refuted`. Refuted: versions and joinSchema are not compared. C35 gives what is compared. |
| C37 Validation failures are never lost and always classified as invalid data | proved | ValidateErr.v: `mungeValidateErr` on CUE errors | induction over the errors. Theorems `C37_…`: `failures_kept`, `foreign`. |
| C38 Every violation is reported to the user | partial | same | witnesses; exact conditions. Theorems `C38_…`: `every_violation_refuted`, `no_panic_refuted`, `panics`, `every_violation_partial`. Refuted: unrecognised errors are dropped and short error paths make composing the message panic. The recognised ones are all reported; panics are characterised exactly. |
| C39 Human readable type names | proved | ValidateErr.v: `humanReadableCUEType` on strings | induction on the split string. Theorems `C39_…`: `names`, `ranges`, `shown_unique`, `idempotent`. |
| C40 Legacy lineages are rewritten to densely numbered lineages with the exact lens set | proved | Rewrite.v: `extractParts`, `rewrite` of rewrite.go | induction over sequences. Theorems `C40_…`: `parts`, `dense`, `output`. For sequences of sizes that Go slices can have. |
| C41 Legacy rewriting is safe for empty sequences | partial | same | witness; exact condition. Theorems `C41_…`: `no_dangling_refuted`, `no_dangling_partial`. Refuted: an empty sequence makes the minor version wrap around. Exactly when lenses dangle is proved. |
| C42 Lock discipline of the runtime | partial | Locks.v: RWMutex transition system and the lock programs of the calls | invariant over reachable states; progress measure. Theorems `C42_…`: `writer_excludes_partial`, `balanced_partial`, `all_finish_partial`, `panic_leaks_refuted`. Refuted for decodes that panic inside NewT, which keep the lock. Proved when the two sections without a deferred unlock do not panic. |
| C43 All CUE evaluation on a runtime is guarded | partial | same | a schedule as witness; invariant. Theorems `C43_…`: `unguarded_calls_refuted`, `builders_refuted`, `guarded_calls_partial`. Refuted for BindType, Value, Translate, Hydrate, Dehydrate, Examples, IsAppendOnly, the muxes and the generators, the last two also with one another; proved for goroutines that use only the other calls. |
| C44 BindLineage unifies a candidate with #Lineage exactly once | partial | Split.v, Lineage.v: conjunct handling of `BindLineage` | witnesses; counting #Lineage over expression trees. Theorems `C44_…`: `unified_once_partial`, `conjuncts_kept`, `unified_once_refuted`, `no_panic_refuted`, `by_name_refuted`. Refuted: several #Lineage conjuncts with one other are unified again, only #Lineage conjuncts panic, and foreign definitions of that name are taken for it. The exact condition and that no conjunct is lost are proved. |
| C45 Splitting a value into conjuncts loses none | proved | Split.v: `AppendSplit` | structural induction on expression trees. Theorems `C45_…`: `leaves`, `omitted`, `meaning`. |
| C46 AssignableTo accepts exactly the documented Go types | partial | Assign.v: `AssignableTo` on CueFrag.v values and Go types | equivalence with the documented rules (AssignSem.v) by structural induction; witnesses. Theorems `C46_…`: `exact_partial`, `argument`, `ends`, `one_element_refuted`, `undocumented_refuted`. Refuted: closed lists of one element are refused; number, null, nested pointers and maps are accepted against the documentation. Exact equivalence with the rules proved for plain schemas. |
| C47 Values bound by AssignableTo never lose data | partial | same | structural induction; witnesses. Theorems `C47_…`: `partial`, `refuted`. Refuted for defaults, maps, lists of lists and open structs. Proved for plain and tight schemas, for all data. |
| C48 Path prefix helpers | proved | Paths.v: `PathHasPrefix`, `ReplacePathPrefix`, `PathsAreEq`… | induction on selector lists. Theorems `C48_…`: `has_prefix`, `replace`, `replace_back`, `paths_equivalence`, `last_selector`. |
| C49 TrimPathPrefix strips the prefix only if it is present | partial | Paths.v: `TrimPathPrefix` | witness; exact result. Theorems `C49_…`: `prefix_absent_refuted`, `prefix_present_partial`, `trim_exact_partial`. Refuted: any common beginning is stripped, also when the prefix is not there. Exact behaviour proved. |
| C50 Sanitised labels | proved | Util.v: `SanitizeLabelString` on UTF-8 bytes | induction on the bytes. Theorems `C50_…`: `sanitize`. |
| C51 JSON Schema output has no OpenAPI-only keywords | partial | JSchema.v: the syntax walk of jschema.go | structural induction on documents; witness. Theorems `C51_…`: `conversion_partial`, `removed_partial`, `outcomes_partial`, `data_changed_refuted`. Refuted: data inside an untyped schema that has a field named type is taken for a schema and loses fields. Exact output for every document is proved. |
| C52 $schema appears on the root only | partial | same | exact set of nodes; witness. Theorems `C52_…`: `outermost_partial`, `root_only_refuted`. Refuted: $schema is also put on typed nodes nested in untyped components. Exactly the outermost typed nodes get it. |
| C53 OpenAPI generation accepts exactly the existing subpaths | partial | Oapi.v: subpath check of oapi.go | case analysis and induction on the path; witness. Theorems `C53_…`: `one_selector_partial`, `any_depth_partial`, `value_partial`, `subpath_refuted`. Refuted: paths of several selectors are checked selector by selector against the root. Proved for one selector and, exactly, for any depth. |
| C54 Module root search | proved | Cli.v: `findCueMod` loop | induction on the path. Theorems `C54_…`: `module_search`, `unique`. The root directory itself is never looked at. |
| C55 Package selection | proved | Cli.v: package selection of load.go | induction over packages. Theorems `C55_…`: `package_selection`, `one_package`. Hypothesis: binding a package does not panic (C65 says when it does). |
| C56 CLI data commands follow their help text | partial | Cli.v: validate, validate-any, hydrate, dehydrate commands | witnesses; exact behaviour. Theorems `C56_…`: `validate_any_silent_refuted`, `fill_all_schemas_refuted`, `quiet_refuted`, `version_partial`, `loaded_partial`, `validate_any_partial`, `one_schema_partial`, `fill_partial`, `process_partial`, `no_lineage_partial`. Refuted: the schema is never nil, so validate-any prints an error and hydrate and dehydrate use only the latest schema; -q is not read. Exact behaviour of all commands is proved. |
| C57 CLI translate | proved | Cli.v: translate command | composition with C26, C27. Theorems `C57_…`: `translate`, `target_required`. For strictly increasing versions and data whose rejection can be reported; the result must also exist, have no error and be concrete, as the code checks. |
| C58 Input format selection | proved | Cli.v: input reading | case analysis. Theorems `C58_…`: `input_format`, `unreadable`, `messages`. |
| C59 Typed instances are bound to their own schema only | proved | Lineage.v, Vmux.v: `BindInstanceType`, `schemaIs` | case analysis. Theorems `C59_…`: `own_schema`, `validate_typed`. Schema identity is pointer identity: lineage identity and index. |
| C60 Generated Go factories have consistent names | proved | Gocode.v: name logic of `GenerateLineageBinding`, binding.tmpl | case analysis on options. Theorems `C60_…`: `declared_once`, `convergent`, `plain`, `exported`, `undeclared`, `settings`. |
| C61 Generated Go types: renaming keeps references consistent | partial | Gocode.v: `fixUnderscoreInTypeName` | structural induction on types; witnesses. Theorems `C61_…`: `references_refuted`, `collision_refuted`, `renamed_partial`, `resolves_partial`, `panics_partial`, `exact_partial`. Refuted: slices of maps, maps to pointers, types declared as another type and constants keep the old name, and two names can become one. Proved for the other shapes; for files of any shape C61_exact_partial says which names change, and panics are characterised exactly. |
| C62 Pointer removal in generated Go types | proved | Gocode.v: `depointerizer` | structural induction on types. Theorems `C62_…`: `exact`, `no_pointer_left`, `only_double_pointers_left`, `idempotent`. |
| C63 Bind options | proved | Lineage.v: bind options | induction over options. Theorems `C63_…`: `bind_options`. |
| C64 Overlay of a file system | proved | Util.v: `ToOverlay` | induction over the walk. Theorems `C64_…`: `prefix`, `overlay_files`, `overlay_error`, `relative_prefix`, `nil_overlay`. |
| C65 BindLineage fails only in documented ways | proved | Lineage.v: `BindLineage` as a whole | case analysis over all checks. Theorems `C65_…`: `bind_classified`. |
| C66 Legacy lens bodies refer to the new names | partial | Rewrite.v: renaming in lens bodies | structural induction; witness. Theorems `C66_…`: `references_refuted`, `exact_partial`, `references_partial`. Refuted: chains of selectors such as from.a.b are left alone. Proved for every body: nothing but references changes, and a name survives exactly when it is bare or below a selector applied to something that is not an identifier; for bodies whose selectors are applied to identifiers none survives. |
| C67 JSON Schema accepts the same data as the OpenAPI schema | partial | JSchemaSem.v: data accepted by both dialects | structural induction on schemas; witness. Theorems `C67_…`: `same_data_partial`, `combinators_refuted`. Refuted for combinators beside a type. Proved for schemas whose combinators occur in untyped nodes. |
| C68 OpenAPI document title, version and components | proved | Oapi.v: documents built around the generated components | case analysis. Theorems `C68_…`: `single`, `group_noop`, `group_document`, `split_document`. |
| C69 OpenAPI reference names | partial | Oapi.v: the naming function, mutation of Config | exact names; witnesses. Theorems `C69_…`: `names_partial`, `root_name`, `inlined`, `unique_names_refuted`, `config_refuted`. Refuted: a definition named like the schema collides with it, and the Config is modified so that its reuse changes names. The exact names are proved. |
| C70 Explicit input formats | partial | Cli.v: explicit formats | witness; case analysis. Theorems `C70_…`: `explicit_format_refuted`, `stdin_partial`, `explicit_format_partial`. Refuted: with an explicit format stdin is always refused. Proved for files with a matching extension. |
| C71 Loader configuration | proved | Cli.v: loader configuration | case analysis. Theorems `C71_…`: `loader_directory`, `loader_file`, `relative`. |
| C72 Union wrappers in generated Go become any | partial | Gocode.v: `fixRawData` | induction over declarations; witnesses. Theorems `C72_…`: `neighbour_lost_refuted`, `references_refuted`, `declarations_partial`, `exact_partial`, `any_partial`, `reached_partial`, `functions_partial`. Refuted: a union that is a nameless member of a union takes the declaration after it along or panics, and some references stay. Proved when no declaration goes for two reasons; C72_exact_partial gives the result for every file, with the declarations that are taken along and the panics, and C72_reached_partial which references become any in types of any shape. |
| C73 Discovered imports are reported | partial | Gocode.v: `PostprocessGoFile` | list reasoning; witness. Theorems `C73_…`: `added_refuted`, `exact_partial`, `in_step_partial`, `failures_partial`. Refuted: imports added by an applier are blamed on goimports because the Imports list of the parsed file is compared. Exact behaviour proved, and the claim when the list is kept in step. |
| C74 Package name of generated Go types | partial | Gocode.v: package name logic | case analysis; witnesses. Theorems `C74_…`: `lower_case_refuted`, `reuse_refuted`, `package_partial`. Refuted: the name is not put in lower case and is stored in the configuration of the caller. Exact behaviour proved. |
| C75 AssignableTo reports every field that does not fit, under its own path | partial | Assign.v: error maps of `AssignableTo` | induction over Go types and fields against an inductive relation of faults (AssignPathProofs.v), which is shown to be the complement of the documented rules; witness. Theorems `C75_…`: `flat_partial`, `nested_partial`, `faults`, `refuted`. Refuted: Go-only fields of nested structs are reported under a bare name and hide other errors. Proved for every plain schema and documented Go type, at any depth: entries are faults with the right messages, every fault has an entry where it is reported, and the report is exactly the set of faults (paths and messages) when no nested struct has Go-only fields. |
| C76 Schema.Validate accepts exactly the valid data | proved | `validate` of Lineage.v with the fragment evaluator of CueEval.v: schema and data unified in the order of the code, concreteness of the result | induction on the schema (CueOrderProofs.v): unification with data on the right evaluates to what `eval` of CueSem.v gives, up to the order of fields. Theorems `C76_…`: `validate_exact`, `declared`. |
| C77 Data valid for a version stays valid for later versions of the same major | proved | `BindLineage` and `validate` with the fragment evaluator | the hypothesis of C09 discharged by C10 along the versions of a major. Theorems `C77_…`: `old_data_valid`. |
| C78 Translating forward within a major keeps all data | proved | `translate` (CUE path) with the fragment evaluator; a step embeds the prior result and the schema in one struct, `opened` stands for closedness not applying across embeddings | C26 gives the chain of embeddings; unification is intersection, evaluation yields a member, membership of embedded data is `extends`. Theorems `C78_…`: `forward_keeps_data`. |
| C79 Valid data can be translated forward within a major unchanged | partial | as C78, with the compatibility checks of `BindLineage` | refuted by a lineage that drops a default; for complete data the invariant that each intermediate value stands for exactly the data (`pin`). Theorems `C79_…`: `forward_refuted`, `forward_complete_partial`. Refuted for data that relies on a default a later minor version dropped. Proved for complete data. |
| C80 The loader accepts exactly usable module file systems | proved | `module_name`, `instanceWithThema` of Load.v: `fs.WalkDir` over cue.mod with its callback on file trees; reading the module field of module.cue and `load.Instances` are parameters | induction on trees: the walk fails exactly at obstructions and otherwise ends with the name of the module file; `usable` speaks of paths only. Theorems `C80_…`: `module_name`, `not_a_module`, `loads`. |
| C81 The overlay holds every file of the module and of thema, each at its place | proved | `load_config` of Load.v with `toOverlay` of Util.v, rooted cleaned paths | C64 twice; disjointness because nothing lies below the thema path. Theorems `C81_…`: `overlay`, `overlay_thema`, `unreadable`. |
| C82 Directory and package that are loaded | partial | `load_config`, `base`: path cleaning and `filepath.Base` on Unix | splitting at slashes inverts joining of plain elements; witness for ./. Theorems `C82_…`: `dir`, `root`, `package_option`, `root_package_refuted`. Refuted for ./, which loads the root directory with package name ".". Proved for plain directories, the empty string, "." and Package options. |
| C83 AsModFS makes a module of any file system | partial | `asModFS`: merging of the one-file system over the given one; `cue_module` reads the written line back as a CUE string literal | case analysis on paths; induction on the name; witnesses. Theorems `C83_…`: `present`, `added`, `usable`, `no_op_refuted`, `name_refuted`. Refuted: a cue.mod directory without module.cue is changed, and names with backslashes or quotes do not read back. The rest is proved. |
| C84 gen openapi and gen jsonschema print the generated document | partial | `run_document`, `printf` of CliGen.v: `fmt.Fprintf` without arguments as an automaton over flags, width and precision; the encoders are parameters | induction on the text: a text is printed unchanged iff it has no percent sign (counting of percent signs, then descent on the length). Theorems `C84_…`: `document_partial`, `encoding_error`, `generation_error`, `percent_refuted`, `format_refuted`. Refuted for documents that contain a percent sign (the text is used as a format string; proved to be the only exception) and for unknown formats (exit status 0 without document). The rest is proved. |
| C85 Flags of gen have the meaning and defaults their help names | partial | `gen_flags` (the table of flag definitions in order), `parsed`, `initial_store` of CliGen.v; flag parsing by pflag is reduced to names and values | case analysis on the table: flags of one command have distinct names and variables; induction on the flags given. Theorems `C85_…`: `known_flags`, `flag_given`, `flag_default_partial`, `help`, `format_default_refuted`, `stdout_refuted`, `bindings_stdout`. Refuted: gen openapi uses json although its help says yaml, and gen gotypes --stdout writes the file. Proved for all other flags. |
| C86 Generated Go files are written next to the lineage | partial | `runGoTypes`, `runGoBindings`, `target` of CliGen.v; code generation and `os.WriteFile` are parameters | case analysis, path cleaning of a single element. Theorems `C86_…`: `types_file_partial`, `bindings_file_partial`, `types_all_or_nothing`, `bindings_all_or_nothing`, `placement_refuted`. Refuted for names with slashes, which place the file elsewhere (a name is any CUE string). Proved for all other names; the header is exact unless the file name has a percent sign. Lower-casing is modelled for ASCII. |
| C87 gen gobindings finds the innermost module | proved | `findModRoot`, `root_up` of CliGen.v with the file system of Cli.v; reading module names is a parameter | induction on the reversed path with an invariant for all deeper directories; comparison with C54 by uniqueness of the nearest directory. Theorems `C87_…`: `root`, `same_module`. |
| C88 The generated bindings load the lineage they were generated for | partial | `binding_config` of CliGen.v composed with `asModFS`, `load_config` of Load.v as in the template binding.tmpl | relative path of a directory below the module; C82 and C83 for the resulting name. Theorems `C88_…`: `config_cue`, `config_go`, `config_none`, `config_no_func`, `package_partial`, `package_refuted`. Refuted for lineages in a Go module without CUE module: the package asked for is named like the Go module. Proved in CUE modules whose names need no quoting. |
| C89 init empty prints a lineage with the name and package asked for | partial | `newlin_text`, `newLineage`, `processPackageArgs`, `run` of Init.v; parsing is modelled for the texts of the template, printing and identifier syntax are parameters | reading back the generated text line by line: induction on the name and package. Theorems `C89_…`: `new_lineage`, `empty`, `argument_refuted`, `names_refuted`. Proved for names without quotes, backslashes and line breaks. Refuted for others (an error, another name, or additional fields) and for the help text, which says that the name is an argument. |
| C90 init openapi and init jsonschema turn a document into a lineage | partial | `runOpenAPI`, `runJSONSchema`, `inputToFile` of Init.v | composition with C89, case analysis. Theorems `C90_…`: `document`, `imports`, `input`, `json_error_refuted`, `flags_refuted`, `imports_refuted`. Refuted: imports of the schema are dropped (proved: the file is resolved iff only thema is referred to); the name is not required, the package does not default to it and --no-package is ignored; an unreadable JSON document yields neither file nor error. Conversion itself is a parameter. |
| C91 Syntax-tree helpers put a schema where its version says | partial | `findSeqs`, `insertSchemaNodeAs`, `appendlin`, `toExpr` of CueAst.v: uniform trees with node identities; labels have no children | contexts (zippers): the list found has a place, assignment through a pointer changes only it; induction on the tree. Theorems `C91_…`: `find_seqs`, `insert_major`, `insert_minor`, `insert_errors`, `insert_no_seqs`, `append_minor`, `append_major`, `to_expr`, `to_expr_plain`, `version_refuted`, `append_refuted`, `append_no_seqs`, `flawed`. Proved for lineages in the old form. Refuted: the next major number is accepted with every minor number, and appending always fails on lineages in the current form, which have no seqs. The functions insertSchemaNodeAs and appendlin are unexported and unused. |
| C92 thema lineage fix replaces the seqs field of the lineage | partial | `rewriteLegacyLineage`, `findSeqsVal`, `fix_do` of CueAst.v; sources and unifications of CUE values are inputs; in-place renaming in lens bodies only through the new fields | contexts; the field is the only one that the walk replaces (induction on the tree with distinct node identities). Theorems `C92_…`: `errors`, `target`, `parts_errors`, `edit_partial`, `fields`, `todo`, `fix_partial`, `fix_writes`, `other_fields_refuted`, `cyclic_refuted`, `nothing_refuted`, `elsewhere_refuted`. Proved if exactly one field below the literal is labelled seqs. Refuted otherwise: other fields of that name are replaced too; in a schema they make the tree cyclic; if seqs comes from an embedded value nothing is rewritten and no error is given; a lineage in another package or in several files panics. |
| C93 Generated Go names are exported identifiers | partial | `schemaNameToTypeName`, `toCamelCase`, `typeNamePrefix`, `sanitizeGoIdentity` of GenName.v; the tables of package unicode beyond ASCII are an argument | induction on the name; names are read as words and other characters. Theorems `C93_…`: `identifier_refuted`, `exported_partial`, `letters_partial`, `exact_partial`, `readable_partial`, `sanitize_partial`, `sanitized_partial`. Refuted for names that begin with a separator or another dropped character (_1, /a) and names of characters without case. Proved for ASCII names that begin with a letter, a digit or a spelled operator; the exact Go name of every ASCII name is given. |
| C94 Different names get different Go names | partial | `schemaNameToTypeName` of GenName.v | the exact name of plain names. Theorems `C94_…`: `distinct_refuted`, `plain_partial`, `camel_partial`, `paths_partial`, `paths_refuted`. Refuted: foo_bar and fooBar, name and Name. Proved for names of letters and digits that start in lower case, and for the paths of such names that types of nested schemas are named by; without underscores (fixUnderscoreInTypeName) paths meet. |
| C95 Every enum value has a constant | partial | `sanitizeEnumNames` of GenName.v; Go maps as association lists | invariant of the counting loop. Theorems `C95_…`: `constants_refuted`, `known_partial`, `total_partial`, `all_partial`, `exact_partial`. Refuted: of a, A, a1 the value A gets no constant. Proved when no Go name is another one followed by digits, with the exact names; for every enum, the constant of a name stands for the last value that gets the name (C95_exact_partial). |
| C96 Descriptions stay comments | proved | `stringToGoCommentWithPrefix` of GenName.v | induction on the text against a separate definition of lines. Theorems `C96_…`: `commented`, `text`, `blank`, `deprecated`. |
| C97 Go types mirror their schemas | proved | `generateGoSchema` and what it calls, `generateTypes` of GenType.v; extensions (x-go-type) and discriminators are left out | induction on the nesting against a separate tree of Go types (GenTypeSpec.v). Theorems `C97_…`: `referred`, `refused`, `whole`, `type`, `fields`, `order`, `file`, `unknown`, `format`, `references`, `references_total`. With the exact text; allOf is C98. References are characterised exactly. |
| C98 Composed schemas keep all parts | partial | `allof_loop`, `mergeOpenapi`, `merge_loop`, `mergeAllOf`, `gen_schema` of GenType.v | induction on the parts and on the depth of compositions (GenMergeDeep.v); the type by C97. Theorems `C98_…`: `leaves_partial`, `leaves_unique`, `all_parts_refuted`, `merged_partial`, `embedded_partial`, `part_partial`, `agree_partial`. Refuted: a composition of references without properties of its own panics, references to names with an underscore are ignored, of a part that is a composition its own properties are lost, and no anyOf is kept. Proved when the first part is inline and no part is a composition: all properties, the last of a name winning, and all elements of oneOf; parts that disagree are refused. Of compositions of compositions, whose own properties are lost, all properties of the innermost parts are kept. When all parts are references each becomes an embedded field. |
| C99 Generated types are declared once | partial | `additionalTypeDefs`, `own_type`, `generateTypesForSchemas`, `unique_types` of GenType.v | induction on the nesting. Theorems `C99_…`: `written_partial`, `file_refused_partial`, `declared_refuted`, `declared_partial`, `unique_partial`, `refused_partial`. Refuted: what the properties of objects inside additional properties and inside the elements of unions need is not declared, nor the name of an enum that is an element of a union. Proved for documents without such needs whose references are to components; always, no name is declared twice, and the error for clashes is exact. |
| C100 Enum constants have the values of the enum | partial | `enum_types`, `enum_text`, `generateEnums` of GenType.v; string literals of Go with one-character escapes | induction on the declarations; C95 for the names. Theorems `C100_…`: `constants_refuted`, `file_partial`, `once_partial`, `exact_partial`, `distinct_partial`, `literal_partial`. Refuted: two types can define the same constant, a constant can have the name of a type, and quotes and backslashes in values are not escaped. Proved: the exact text, one constant for each value, different names within a type, and the value of literals without such characters. |
| C101 Data survives the generated Go types | partial | `dec`, `enc`, `through` (encoding/json) and `unptr` (decorators.go) of GoJson.v, over the types of GenTypeSpec.v, which C97 and C99 show to be the generated ones. Numbers are integers and floats are printed in full; data in strings with a format of its own (byte, date-time, ...) and structs with additional properties are outside the positive theorem. The passes fixRawData and fixUnderscoreInTypeName leave the types of such data alone | induction on the data, with fuel for recursive types; the kept data is an inductive specification over schemas and data (GoJsonSpec.v). Theorems `C101_…`: `extra_refuted`, `letters_refuted`, `number_refuted`, `empty_refuted`, `null_refuted`, `name_refuted`, `integer_refuted`, `no_pointers_refuted`, `unchanged_partial`, `valid_partial`, `pass`. Refuted: members that only additionalProperties allows are dropped, numbers without a format are rounded to float32, empty optional lists vanish, optional nullable properties become null, null in lists becomes a value, names with a comma and the name - are not read, integers of 64 bits and more are refused, and NoOptionalPointers drops optional false, 0 and empty values. Proved: all valid data without these comes back unchanged, for documents without allOf whose declarations are complete; data of unions is not covered. |
| C102 Comments are the descriptions | partial | the regular expressions as item lists with the priorities of regexp (bytes for characters), `replace_todo`, `removeGoFieldComment`, `isTypeSpec`, `fix_decl`, `fix_field` of GoComment.v; strings.EqualFold is a parameter | what the first match is, by induction on the text (first and last possible split); a match needs three spaces. Theorems `C102_…`: `description_refuted`, `name_kept`, `panics`, `todo`, `words_refuted`, `description_partial`, `file_partial`, `lines`, `functions`. Refuted: the name stays before descriptions that begin in lower case or are one word, a description that begins with a space panics, text before TODO is lost, and so are words when the name does not begin with A-Z. Proved: each case exactly; descriptions that begin with another word become the comment, and only first lines change. |
| C103 Two hops are one | partial | `translate` of Translate.v; the relations `go_trans` and `cue_trans` (one step per version, independent of the loops) say what a translation is | composition of the relations by induction, determinism, and the agreement of `translate` with them. Theorems `C103_…`: `go`, `cue_error_refuted`, `cue_data_refuted`, `cue_partial`. Proved for Go lenses, errors included. Refuted for CUE lenses: data at the stop that is incomplete is an error there only, and defaults filled in at the stop change the result. Proved for CUE lenses: a failing lens fails both ways, and a stop whose data is what the lenses made changes nothing. |
| C104 A mux takes its own output back | partial | `newUntypedMux`, `newByteMux` of Vmux.v; the codec is a pair of parameters | what comes out of a mux conforms to its schema (case analysis on the mux result, C21 and C26), and conforming data is taken at once. Theorems `C104_…`: `bytes`, `untyped`, `go_refuted`, `go_partial`. Proved with CUE lenses. Refuted with Go lenses: a mapper that answers with an instance of another lineage makes the mux refuse its own output. Proved with Go lenses whose results are valid instances of the own schemas. |
| C105 Generated TypeScript | partial | `ts_generate` of TypeScript.v with strings.Title as `title`; the functions of cuetsy are parameters | case analysis; `title` by induction on the name. Theorems `C105_…`: `file`, `group`, `default_name`, `identifier_refuted`, `identifier_partial`, `reuse_refuted`, `left`, `reuse_partial`. Proved: what the file holds, groups, the default name of one-word names, what a call leaves in the configuration. Refuted: the default name is no identifier when the lineage name is none; a second lineage gets the root name of the first. Proved: the default is an identifier exactly when the name is, and reuse is harmless for groups, a given RootName, and equal defaults. |
| C106 Unions in generated Go code | partial | `generated` and `passes` of GenFile.v: the declarations of a file and the passes that change them; the specification replaces unions in the document (GenUnionSpec.v: `blur_doc`) | structural induction on schemas for types before and after the pass, then the cursor of the pass over the list of declarations; refutations by computation. Theorems `C106_…`: `deep_refuted`, `alias_refuted`, `enum_refuted`, `neighbour_refuted`, `mixed_refuted`, `file_partial`, `left_partial`, `complete_partial`, `data_partial`. Proved for documents whose unions have only alternatives, which are not unions, have no description and are no inline enums, and that are not in maps in lists or structs in maps: the file left is exactly that of the document with every union replaced by a schema that allows anything, it is complete, and data passes as in C101. For any document: before the passes each type is declared once, and methods are those of declared types with the receivers their bodies need. Refuted outside of that: names that dangle (maps in lists, structs in maps, aliases of unions, enum alternatives), a neighbouring declaration removed (nested unions), and a union field without methods (objects with properties and alternatives). |
| C107 The joinSchema governs every schema | proved | `close`, `schema_handle`, `join_lineage` of Join.v: the CUE code of lineage.cue on the fragment; the specification is membership (`inst`) and `known` of JoinSem.v | induction on values and data: closing admits what the value admits and names; the fields named by a unification are those named by its parts. Theorems `C107_…`: `join_governs`, `join_exact`. A written ellipsis in a struct is not in the fragment. |
| C108 Finding the schema of data in CUE | proved | `valid_for`, `search_and_validate` of Traverse.v | induction on the list of schemas. Theorems `C108_…`: `first`, `before`, `search`. |
| C109 What is documented of the joinSchema | partial | as C107, with `isAppendOnly` of Lineage.v | the outcome is shown not to depend on the joinSchemas; refutations by computation. Theorems `C109_…`: `append_only_bodies_partial`, `instances_refuted`, `never_changes_refuted`. Refuted: a schema need not be an instance of the joinSchema (it is made one by unification), and IsAppendOnly compares only the schemas as written, whatever the joinSchemas: changing the joinSchema can change which data is valid. |
| C110 The schema found in CUE is the one found in Go | partial | as C108, with `validateAny` of Lineage.v | computation; exact condition of agreement from C15 and C108. Theorems `C110_…`: `agree_refuted`, `agree_partial`, `data_refuted`. Refuted: data that lacks required fields counts as found in CUE and not in Go, and the inst that #SearchAndValidate returns is the schema, its reference to the data being shadowed by the field itself. Proved: both find the same version exactly when the schema found in CUE wants nothing the data lacks; see also C108. |
| C111 The guarantee | partial | `Translate` and its two paths of Translate.v, `newUntypedMux` of Vmux.v, over lineages that `BindLineage` accepts; `total_go`, `upheld`, `total_cue` say of the lenses alone what the theorems need | induction on the distance between the schemas: one step per lens or minor version, each keeping validity; the checks of BindLineage give the minor steps. Theorems `C111_…`: `guarantee_refuted`, `go_partial`, `cue_partial`, `fragment_partial`. Refuted as documented: data relying on a default does not reach the next minor version, and data of majors 0-2 does not reach a fourth major. Proved: with Go lenses, checks on and sound, from lenses that turn valid instances into valid instances (translation, and the mux on undecoded input); with CUE lenses between majors 0-2, for anything the steps keep up, and in the CUE fragment for complete data when each lens turns complete data of its source into complete data of its target and emits no lacuna on it. |
| C112 Publishing versions changes nothing for the published ones | proved | `lin_schema`, `validate`, `validateAny` of Lineage.v and `translate` of Translate.v on both lineages; `grows`, `twin`, `alike` of GrowthProofs.v say what the same means | positions and lens indexes of published versions are shown not to depend on what is appended (prefix lemmas), so that the steps of #Translate are equal; for Go, induction on the derivation of the translation. Theorems `C112_…`: `lookup`, `validate_any`, `cue`, `go`. Published schemas are taken to have the same values in both lineages. CUE lenses: dense lineages with exactly the lenses that are needed; Go lenses: the same functions, which do not look at the lineage they are called for. |
| C113 A mux answers the same after publishing | partial | as C112, with `newUntypedMux` of Vmux.v | the specification of the mux (C31) on both lineages, and C112 for the translation; refutation by computation. Theorems `C113_…`: `mux_refuted`, `cue_partial`, `go_partial`. Refuted: when a new schema also accepts the data, the data is taken to be of that version, and its lenses can give another answer; this with lenses that translate all valid data. Proved: the answer stays when the schema of the mux accepts the data itself or no new schema accepts it. |
| C114 The authoring guide on compatible and breaking changes | partial | `BindLineage` of Lineage.v over `cue_fragment` of CueEval.v; `widens` and `breaks` of Authoring.v are the kinds of change, written down from the guide and the names of the test data | mutual induction on `widens` and induction on `breaks` give the outcome of subsumption; an appended schema adds one check to those of the bound lineage; refutations by computation and by a general lemma. Theorems `C114_…`: `compatible_partial`, `breaking_partial`, `kinds_partial`, `default_refuted`, `default_partial`, `default_removed_refuted`. Refuted: an added field with a default is rejected as a minor version and accepted as a new major, although all old data stays valid; removing a default is accepted as a minor version. The rest is proved on the fragment, for closed structs. The guide writes schemas in `seqs`, which the pinned code no longer has; its sequences are read as majors. |
| C115 Declaration order is a recommendation | partial | `BindLineage` of Lineage.v for two candidates | sorted lists that are permutations of each other are equal; the exact outcome of the Go lens check (C17) depends on the set of lenses only; refutation by computation. Theorems `C115_…`: `order_free_refuted`, `schemas_partial`, `cue_lenses_partial`, `go_lenses_partial`. Refuted for schemas and CUE lenses: another order does not bind. Proved: of all orders of the same declarations at most one is accepted (up to entries with equal versions), and Go lenses may come in any order. |
| C116 Bind errors name the fault | proved | Lineage.v: the error texts of checkExists, check_fields, checkSchemasOrder, check_one, doCheck | A separate relation schema_fault says what is wrong with a schema after its predecessor and with which error; check_schemas answers an error exactly if it is that of the first fault (induction over the list with the schemas seen before), likewise for lenses. The advice: a compatible schema under the next minor number passes all checks, the count of schemas per major included.. Theorems `C116_…`: `first_fault`, `decided`, `candidate`, `redeclare`. The texts CUE appends (the details of an incompatibility, the printed lens) are left out; a path with characters that %q escapes is printed as it is. |
| C117 Hint at the path of the lineage | partial | Cli.v: dynLoad and exec with the marks and texts of all errors | The witness is a package whose lineage is at "lin". That the hint is never given: every error of the loader marked as "not a lineage" is one of the two of check_fields (case analysis over BindLineage, the choice of the package and of the schema).. Theorems `C117_…`: `hint_refuted`, `never_partial`. Refuted: the command looks for "instance root" in the text of the error, which no error of BindLineage contains any more; proved that the hint is never given. |
| C118 Pruning keeps what is used | partial | Prune.v: the walk over paths, operations, callbacks, schemas, parameters, headers, bodies, responses, examples, links and security schemes; findComponentRefs, removeOrphanedComponents, pruneUnusedComponents | A separate relation says where a reference is written; the walk finds exactly those (induction over schemas, mutual induction over operations and callbacks). The loop keeps every supported set (invariant) and stops only when what is left is supported, so it is the largest. The number of components left bounds the rounds.. Theorems `C118_…`: `unused_refuted`, `dangling_refuted`, `ends`, `exact_partial`, `used_partial`, `acyclic_partial`. Refuted twice: an unused schema that refers to itself stays, and a schema goes that only the content of a header, or the mapping of a discriminator, refers to. Proved: pruning ends; exactly the largest set of components that support one another from the paths stays, with their definitions as they were; references at the places the walk visits keep their targets; without circles exactly what is used stays; pruning again changes nothing. Not modelled: the headers of the encoding of a media type, extensions. |
| C119 The exemplar lineages translate their data | partial | Exemplars.v: the six lineages as values, their lenses in a small language of fields, guards and lacunas; the options of All and the factories | the lineages are bound by computation; validity is inverted to the shape of the data, then translation is computed on symbolic data. Theorems `C119_…`: `translates_refuted`, `bind_partial`, `rename_partial`, `narrowing_partial`, `defaultchange_partial`, `expand_partial`, `disjunct_partial`. Refuted: in narrowing a string other than true and false makes the lens emit a lacuna, which is an error; in defaultchange the lens names input.anion, which does not exist, so that nothing translates to 1.0; in expand the value baz does not translate back to 0.2, where the comment says that the default is selected; in disjunct the body of the lens is commented out. Proved: they all bind; exactly which data of rename, narrowing, defaultchange, expand and disjunct translates, and to what; in disjunct valid data without the number of its branch does not translate to 0.1, and nothing translates back. single has one schema. |
| C120 Generated Go code depends on nothing but the schema | partial | GenGlobals.v: the package-level variables, the accesses of a call in order, the body as any computation that reads them, RefPathToGoType in full, and the runtime check of concurrent map accesses | invariant over schedules: what the calls so far have set agrees in everything a call by thema reads; references are named the same under every document without x-go-name. Theorems `C120_…`: `at_once_refuted`, `any_two_partial`, `same_time_partial`, `in_turn_partial`, `suffix_partial`, `references_partial`. Refuted: two goroutines that generate can end the program, as each call assigns to the map TemplateFunctions. Proved: whenever the program goes on, every call returns what its own document and options give; calls in turn complete, independently of each other but for the suffix of response types, which thema does not set. The assignments of whole structs are single steps in the model. |
| C121 Imports of generated Go code | partial | GenImports.v: x-go-type-import, the collection of imports from schemas, bodies, responses and parameters, and the import statements; maps are lists in the order of iteration. Operations are not modelled. | Induction on schemas (GenImportsProofs.v), documents and aliases (GenImportsFacts.v).. Theorems `C121_…`: `imports_refuted`, `order_refuted`, `exact_partial`, `aliases_partial`. Refuted: schemas of additional properties and of allOf, anyOf and oneOf are not looked at, so that the package of their Go type is not imported; and an extension with two fields that differ in case is read in either way. Proved: the imports are exactly those that schemas reached through properties and items ask for, or an error; packages of the mapping and their names correspond one to one, independently of the order. Documents that thema makes have neither of them. |
| C122 The text of the error of AssignableTo | partial | AssignText.v: the messages, and assignErrs.Error for the entries in any order. How CUE renders paths, kinds and values is a parameter. | Induction on the entries; case analysis of the messages (AssignTextFacts.v).. Theorems `C122_…`: `order_refuted`, `text_partial`. Refuted: the errors are kept in a map, so that the order of the lines varies. Proved: in every order there is one line for each error and no other, which begins with the path, and lines about different rules differ. |
| C123 Maps given on a command line | partial | InputMap.v: both functions. Input that is not UTF-8 is modelled (it comes out as U+FFFD) but not covered by the theorems about the exact result. | A text is cut at the separators with an even number of quotes before them, in one way only; induction on the parts (InputMapProofs.v, Utf8Proofs.v).. Theorems `C123_…`: `round_partial`, `exact`, `one_way`, `limits`, `any_map_refuted`, `quote_refuted`. Proved for every map with at least one entry and no quotes in keys and values; for every other input the exact result. Refuted: the empty map cannot be given, nor a key or value with a quote at an end. |
| C124 Lists given on a command line | proved | InputMap.v: ParseCommandLineList with ASCII spaces. | Trimming the whole input first changes no word: induction on the spaces (InputMapProofs.v).. Theorems `C124_…`: `round`, `exact`. The spaces are those of ASCII; the model of strings.TrimSpace leaves other Unicode spaces alone. |
| C125 Parameters of a path | partial | Uri.v: the regular expression as a matcher, and the functions that use it. What else a parameter has is kept abstract. | The matcher finds a parameter exactly where the grammar has one (UriProofs.v); induction on the path; NoDup_Permutation_bis for the order.. Theorems `C125_…`: `one_way`, `exact`, `built`, `sorted_partial`, `sort_exact`, `repeated_refuted`, `path_only`, `override_refuted`. Proved for every path that names no parameter twice; for every other input the exact result and the text of the errors. Refuted: a path that names one twice drops a declared parameter without an error; and an operation that declares a parameter of its path again is refused, although the comment speaks of a union. |
| C126 Escaped paths | partial | Uri.v: EscapePathElements, with url.QueryEscape of the standard library on bytes. | All 256 bytes by computation, then induction on the elements (UriProofs.v).. Theorems `C126_…`: `round_partial`, `exact`, `only`, `space_refuted`. Proved for every path without spaces, and exactly for all others. Refuted: a space becomes a plus sign, which in a path stands for itself. |
| C127 Runtimes made at the same time | partial | Once.v: NewRuntime and loadRuntime step by step for any number of goroutines, with sync.Once as Go implements it; memory is sequentially consistent. What is loaded, whether it is valid and whether the overlay can be made are parameters. What CUE does to an instance that is built in several contexts at once is not modelled. | An invariant of all reachable states (OnceProofs.v): who holds the mutex, what is loaded before and after the flag is set; a measure that each step makes smaller.. Theorems `C127_…`: `once`, `same`, `good`, `progress`, `ends`, `settled`, `failed_once`, `failed_why`, `invalid_refuted`, `overlay_refuted`. Proved but for the last part, which is refuted: rtOnce counts a panic as done, so that after the panic of the first call the next one makes a Runtime of the instance that was found invalid, or panics because there is none. |
| C128 Fields are tagged as their schema asks | partial | GenTag.v: GenFieldsFromProperties with all extensions of fields, the form tag and the option about required read-only fields. Without extensions it is the genField of GenType.v (C128_plain). reflect.StructTag.Lookup is written down in the specification, for values that need no unquoting. Comments are those of GenName.v. | The tags are a map that is shown to hold k and v exactly if the specification wants them (fieldTags_in); sorting makes the text unique, hence independent of the order (order_same); reading back is by induction on the tags (lookup_written).. Theorems `C128_…`: `exact`, `each`, `read_partial`, `order`, `plain`, `read_refuted`, `dropped_refuted`. Refuted: a name or value with a quote is not escaped, so that Go reads another one, and one extra tag that is not a text makes all of them disappear without an error. Proved: the exact text of every field, independence of the order of maps, and reading back if keys are possible ones and values are printable ASCII without quotes and backslashes. |
| C129 Operations are left out by their tags | partial | OpFilter.v: filter.go, and the first steps of Generate, with pruning of Prune.v. Operations of callbacks are not looked at by the filter and have no tags in the model. The methods of a path are distinct (methods_once), as they are fields of a struct. | Removing by name is removing by tag as methods are distinct (include_eq); one pass thins an item (one_thinned) and two compose (thinned_trans); components through C118 (used_wanted).. Theorems `C129_…`: `exact`, `again`, `order`, `parameters_refuted`, `left_partial`, `total`. Refuted for components: those that parameters of a path refer to stay when all its operations go. Proved: which operations stay, whatever the order of the methods, that filtering again changes nothing, and which components stay, if they do not refer to one another in circles. |
| C130 The document inside the code is the document | proved | EmbedSpec.v: the pieces of GenerateInlinedSpec, the lines of the template that have them, and decodeSpec of the generated code. encoding/base64 is modelled bit by bit. MarshalJSON and compress/gzip are arguments; texts of errors of decodeSpec are cut short, and ends of lines in encoded text, which Go skips, are left out. | Reading the literal back is by induction on the pieces (read_parts), the pieces join to the text (loop_parts), and each four digits are three bytes (decode_encode, four_digits).. Theorems `C130_…`: `same`, `pieces`, `base64`, `error`. Unpacking is supposed to undo packing, as compress/gzip promises. |
| C131 Every operation of a document is defined, once and by its own name | partial | OpDefs.v: OperationDefinitions with generateDefaultOperationID, DescribeSecurityDefinition and the loop of DescribeParameters; parameters in paths are those of Uri.v, names those of GenName.v. The body of the loop of DescribeParameters, bodies and responses are arguments. Servers, the summary and types of operations are left out, and so is writing the identifier back into the document. | Induction on paths and methods in order (paths_defined, doc_fails); names by the lemmas of C93 (base_word).. Theorems `C131_…`: `exact`, `errors`, `total`, `named`, `once_refuted`, `security_refuted`. Refuted: different operations can get the same name, with and without identifiers, and definitions do not tell either of two security schemes from both. Proved: exactly which definitions there are and what is in them, the cause and text of every error, that names in ASCII are exported Go names, and that such a name is kept. |
| C132 A generated client reads every response as the type declared for it | partial | RespCase.v: GetResponseTypeDefinitions, genResponseUnmarshal, buildUnmarshalCase, getConditionOfResponseName and IsMediaTypeJson; the cases are data with their texts, and run is what Go does with such a switch. GenerateGoSchema is an argument. Names of responses are statuses of three digits, 1XX to 5XX and default, as OpenAPI has them. | The map of cases by induction on the types (filled_in), which come in order (types_order); sorting by keys puts the closest name first (order_closer, key_order, run_first).. Theorems `C132_…`: `exact`, `notes`, `fields`, `alike_refuted`, `vendor_refuted`, `errors`. Refuted: of two JSON contents of one response (such as application/json and application/problem+json) the first is read as the type of the second and their fields collide, and contents that are JSON by suffix only are not read. Proved: for every status and header which case is taken, namely the first word in the header, then the closest name, then the last content; the text of the switch; that every case fills a declared field; distinct fields where no two contents are read alike; the cause and text of every error. |
| C133 Every content of a body and every response has a definition of its own | partial | OpBodies.v: GenerateBodyDefinitions, GenerateResponseDefinitions, Suffix and TypeDef of bodies. GenerateGoSchema and giving fields the tag of forms are arguments. The values of headers are taken to be there. | Induction on contents and responses in order (bodies_ok, responses_ok); the references taken are the invariant.. Theorems `C133_…`: `bodies`, `apart`, `request_types`, `apart_refuted`, `schema_refuted`, `body_errors`, `none`, `responses`, `refs_once`, `response_errors`. Refuted: two kinds of JSON in one body have the same type and the same function, and a tagged content without a schema, which OpenAPI allows, is a panic. Proved: exactly which definitions there are, their order, tags, types, defaults and encodings; that contents of different tags are apart; that each type of a response is taken by the first status that refers to it and by no other; that there is no other panic, and the cause and text of every error. |
| C134 Every parameter of an operation is a field or a variable of its own | partial | `style`, `explode`, `isJson`, `isPassThrough`, `goName`, `goVariableName`, `fieldName`, `generateParamsTypes`, `generateTypeDefs` of ParamTypes.v; the text of the struct is left to C97 | induction on the parameters; runes of ASCII names; concrete parameters for what is refuted. Theorems `C134_…`: `style`, `fields`, `unknown`, `types`, `names`, `names_refuted`, `distinct_refuted`, `variable`, `variable_refuted`, `kinds`. Refuted: parameters of one name in two places make two fields of this name; with x-go-name the field has the given name and the code uses its camel case; type and p_type have the same variable; a name such as _ panics. Proved: the exact fields, types, styles and defaults, when it panics, and that variables are Go variables for names of letters and digits. |
| C135 The old way of merging compositions makes the union of the parts | partial | `propertiesEqual`, `addProperty`, `old_step`, `old_loop`, `old_lines`, `genStructFromAllOf`, `mergeSchemasV1` of OldMerge.v; the schema of a part is an argument | induction on the parts with the state after each of them; concrete parts for what is refuted. Theorems `C135_…`: `collides`, `added`, `merged`, `compatible`, `union_refuted`, `types_refuted`. Refuted: a property that two inline parts have is there twice, so the struct has the field twice; the types that additional properties of a part need are dropped. Proved: exactly which properties collide, that exactly compatible parts are merged, and the lines and properties of the result. |
| C136 A configuration asks for at most one kind of server | partial | `generate`, `updateDefaults`, `validate` of OldMerge.v | cases of the options; a concrete configuration for what is refuted. Theorems `C136_…`: `accepted`, `refused`, `one_server_refuted`, `defaults`. Refuted: the Gorilla server is not counted, so it is accepted beside another one. Proved: exactly what is accepted, both errors, and the defaults. |
| C137 Lists of parameters that share arrays do not disturb each other | proved | `append`, `filterParams`, `operation`, `params`, `allParams`, `calls`, `with_global` of SliceParams.v: arrays with a length, slices of them, and an arbitrary growth policy | an invariant on all slices returned so far: each holds the first elements of one list; induction on the calls. Theorems `C137_…`: `operation`, `calls`, `stay`, `global`. Slices start at the start of their arrays. The slice of global parameters with those of one operation is only right until the next operation is described, and the code reads it before; shown by an example. |
| C138 The summary of an operation becomes nothing but a comment | proved | `summaryAsComment` of OpSummary.v | splitting at newlines undoes joining; a summary has exactly one list of lines. Theorems `C138_…`: `summary`, `comment`, `empty`. Exact for all summaries; other characters that end lines for a reader, such as a carriage return, stay within a line. |
| C139 The constants of security schemes the operations use are declared | partial | `generateConstants`, `scopesUsed` of ScopeConst.v | decoding gives characters, so that encoding and decoding a sanitized name gives it back; sanitizing is idempotent; witnesses for the collisions. Theorems `C139_…`: `declared`, `used`, `keys`, `order`, `sanitized`, `apart_partial`, `twice_refuted`, `shared_refuted`. Declaration, use, keys and order hold for all names. That schemes have constants of their own is refuted: apiKey and ApiKey declare ApiKeyScopes twice, api-key and api_key share one constant; it is proved for names of letters and digits that start with an upper case letter. The text around the constants is not modelled. |

## Trusted base

- Coq's kernel (8.16.1).
- Axioms: none. `Print Assumptions` is run under every theorem of the
  `Properties*.v` files and prints "Closed under the global context" for each. (A
  listing of everything loaded also shows the seven constants of
  `Coq.ssr.ssrunder`, a module type of the standard library that `Lia` and
  `Setoid` load; no theorem uses them.)
- The fidelity of the model to the code as cited in the definitions.
- `CueFrag.v` as an account of CUE, for the theorems that mention `val`: kinds,
  subsumption with `Raw`, unification, defaults, `FillPath`, closedness, on
  null, booleans, integers, strings, types, integer bounds, disjunctions with
  defaults, structs with regular and optional fields, closed or open with a
  pattern, and lists. Not in the fragment: references, comprehensions,
  definitions as such, hidden fields, floats, bytes, string patterns. `Default`
  of a closed list is said to be no default there; CUE may differ, and no theorem
  depends on it.
- The account of the Go standard library functions in Strings.v, Version.v
  (`ParseUint`), Search.v (`sort.Search`), Util.v (UTF-8 decoding, `fs.WalkDir`),
  Locks.v (`sync.RWMutex`).

## Not modelled

Go's compiler, runtime and memory model beyond the lock protocol; the CUE
evaluator beyond the fragment, CUE's parser (except for the texts Init.v
and Load.v generate) and formatter; network; cobra
flag parsing beyond the bindings cited; the OpenAPI and TypeScript encoders of
third-party libraries, and of the vendored Go generator (oapi-codegen) all but names,
comments, types and constants of component schemas; in /repo: the server command (`srv.go`), the
disabled command `lineage bump`, tests, and documentation.
