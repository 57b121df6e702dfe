{"id": "C01", "title": "Version ordering is the lexicographic strict total order", "statement": "SyntacticVersion.Less is irreflexive, transitive and total (exactly one of a<b, a=b, b<a holds for any two versions), it compares the major number first and the minor number second, and it agrees with the comparison (_cmpSV) that the CUE half of Thema uses to pick the direction of a translation.", "quantifier": "all pairs and triples of versions", "why_tests_cant": "The order is used by binary search and by every bind check; a test table covers nine pairs, transitivity and totality range over infinitely many.", "anchors": ["surface.go:SyntacticVersion.Less", "lineage.cue:_cmpSV"]}
{"id": "C02", "title": "Version strings round-trip", "statement": "For every version v whose two numbers fit in 32 bits, ParseSyntacticVersion(v.String()) returns v and no error. A string is accepted exactly when it is two non-empty runs of decimal digits separated by one dot, each denoting a number below 2^32, and the version returned is the pair of denoted numbers. Everything else is rejected with ErrMalformedSyntacticVersion and the zero version. Consequently two distinct versions never print alike.", "quantifier": "all versions and all byte strings", "why_tests_cant": "The set of inputs is infinite, including strings with signs, spaces, underscores, extra dots and numbers around 2^32.", "anchors": ["surface.go:ParseSyntacticVersion", "surface.go:SyntacticVersion.String"]}
{"id": "C03", "title": "Every version that a lineage can hold can be named on the command line", "statement": "Documented: a schema version is a pair of uint64 numbers, and ParseSyntacticVersion parses the canonical representation of a version. Hence parsing the printed form of any schema version of any lineage should give that version back.", "quantifier": "all versions of all lineages", "why_tests_cant": "The failing versions are those at or above 2^32, which no test uses.", "anchors": ["surface.go:ParseSyntacticVersion", "lineage.cue:#SyntacticVersion"]}
{"id": "C04", "title": "Binary search over versions finds the first not-smaller version", "statement": "For every list of versions in non-decreasing order, the search used by every version lookup terminates, never probes outside the list, and returns the number of versions strictly smaller than the target; the existence check answers true exactly when the target occurs in the list.", "quantifier": "all sorted version lists of any length and all targets", "why_tests_cant": "Off-by-one faults in a binary search show only at particular lengths and positions.", "anchors": ["lineage.go:searchSynv", "lineage.go:synvExists"]}
{"id": "C05", "title": "Lineage.Schema finds exactly the declared versions", "statement": "On every lineage returned by BindLineage, Schema(v) returns a schema whose Version() is v if some declared schema has version v, and otherwise returns an error matching ErrVersionNotExist. It never panics.", "quantifier": "all lineages accepted by BindLineage, all versions", "why_tests_cant": "Depends on the order invariant established at bind time and on the search, for lineages of any length.", "anchors": ["lineage.go:baseLineage.Schema", "lineage.go:baseLineage.schema", "bind.go:checkSchemasOrder"]}
{"id": "C06", "title": "Schema versions in a bound lineage strictly increase", "statement": "Documented (error text 'schema version X is not greater than previous schema version Y', and 'exactly one correct version per schema'): in every lineage accepted by BindLineage the declared versions strictly increase along the list.", "quantifier": "all candidate lineages", "why_tests_cant": "Requires considering every list of declared versions, including repeated ones.", "anchors": ["bind.go:checkSchemasOrder", "bind.go:checkGoValidity"]}
{"id": "C07", "title": "Schema versions in a bound lineage are numbered consecutively from 0.0", "statement": "Documented ('Only the [0, 0] schema is guaranteed to exist in all valid lineages'; a version 'has exactly one correct value ... determined by its position'): in every bound lineage the first version is 0.0 and each next version is either the next minor of the same major or x+1.0.", "quantifier": "all candidate lineages", "why_tests_cant": "Quantifies over all version lists; tests only bind well-numbered ones.", "anchors": ["bind.go:checkGoValidity", "lineage.go:baseLineage.First", "lineage.cue:#SchemaDef"]}
{"id": "C08", "title": "Bind-time compatibility rule", "statement": "BindLineage without SkipBuggyChecks accepts the schema list exactly when every version number is concrete, no version is smaller than its predecessor, every schema after the first with minor number 0 is backwards incompatible with its predecessor, and every schema after the first with a non-zero minor number is backwards compatible with its predecessor. Each violation is reported as an error (ErrInvalidLineage, or ErrInvalidSchemasOrder for order). With SkipBuggyChecks only the compatibility part is dropped. The bound lineage contains the declared schemas in declared order.", "quantifier": "all lists of declared schemas and all compatibility relations", "why_tests_cant": "An exact characterisation over lists of any length and every compatibility verdict of the CUE evaluator.", "anchors": ["bind.go:checkGoValidity", "bind.go:checkSchemasOrder", "internal/compat/compat.go:ThemaCompatible"]}
{"id": "C09", "title": "Old data stays valid within a major version", "statement": "If the compatibility check is sound (schema s compatible with p implies all data valid for p is valid for s), then in every lineage bound without SkipBuggyChecks whose versions strictly increase, data valid for a schema is valid for every later schema of the same major version.", "quantifier": "all lineages, all pairs of versions of the same major, all data", "why_tests_cant": "Transitive consequence over chains of any length; tests check adjacent pairs of a few lineages.", "anchors": ["bind.go:checkGoValidity", "internal/compat/compat.go:ThemaCompatible", "schema.go:schemaDef.Validate"]}
{"id": "C10", "title": "The compatibility check guarantees that old data stays valid", "statement": "Documented: a minor version is backwards compatible, so every instance of the older schema is an instance of the newer one. Hence whenever ThemaCompatible(p, s) returns nil, all concrete data that validates against p validates against s.", "quantifier": "all pairs of schemas and all data (in the modelled fragment of CUE)", "why_tests_cant": "Validity of all data against all schemas cannot be enumerated.", "anchors": ["internal/compat/compat.go:ThemaCompatible", "schema.go:schemaDef.Validate"]}
{"id": "C11", "title": "Successor and Predecessor walk the lineage", "statement": "On every bound lineage whose versions strictly increase from 0.0: Successor of the i-th schema is the (i+1)-th, and nil exactly for the last; Predecessor of the i-th is the (i-1)-th, and nil exactly for the first; the two are inverse; starting at First() and following Successor visits exactly All(), in order, and stops.", "quantifier": "all such lineages, all schemas in them", "why_tests_cant": "Universal over lineage length and position.", "anchors": ["schema.go:successor", "schema.go:predecessor", "lineage.go:First", "lineage.go:All"]}
{"id": "C12", "title": "Walking any bound lineage terminates and never panics", "statement": "Documented ('all non-nil instances of Lineage are guaranteed to follow Thema invariants'): on every lineage accepted by BindLineage, following Successor from First() terminates after visiting each schema once, and Successor and Predecessor never panic.", "quantifier": "all lineages accepted by BindLineage", "why_tests_cant": "Termination and absence of panics over all accepted inputs.", "anchors": ["schema.go:successor", "schema.go:predecessor", "bind.go:checkSchemasOrder"]}
{"id": "C13", "title": "LatestInMajor returns the newest schema of the same major", "statement": "Documented: LatestInMajor returns the schema with the largest minor version within the receiver's major version, and itself if it is the latest; LatestVersionInSequence(n) returns the largest version whose major is n.", "quantifier": "all bound lineages and all schemas in them", "why_tests_cant": "No test calls it; the claim ranges over all lineages.", "anchors": ["schema.go:LatestInMajor", "surface.go:LatestVersionInSequence"]}
{"id": "C14", "title": "Latest, First and All are consistent", "statement": "On every bound lineage, All() lists the declared schemas in declared order and is non-empty, First() is its first and Latest() its last element, no schema has a version greater than Latest() or smaller than First(), LatestVersion equals Latest().Version(), and none of them panics.", "quantifier": "all bound lineages", "why_tests_cant": "Universal over all accepted lineages.", "anchors": ["lineage.go:Latest", "lineage.go:First", "lineage.go:All", "surface.go:LatestVersion"]}
{"id": "C15", "title": "ValidateAny picks the oldest validating schema", "statement": "On every bound lineage whose versions strictly increase, ValidateAny(data) terminates; it returns nil exactly when no schema in the lineage validates the data, and otherwise an Instance of the oldest (smallest version) schema that does, wrapping the unchanged data.", "quantifier": "all such lineages, all data, all validity verdicts", "why_tests_cant": "Ranges over every data value and every pattern of validity across versions.", "anchors": ["lineage.go:ValidateAny", "schema.go:schemaDef.Validate"]}
{"id": "C16", "title": "ValidateAny terminates on every bound lineage", "statement": "On every lineage accepted by BindLineage and for every data value, ValidateAny returns, and considers every schema of the lineage before returning nil.", "quantifier": "all lineages accepted by BindLineage, all data", "why_tests_cant": "Non-termination cannot be observed by a test that finishes.", "anchors": ["lineage.go:ValidateAny", "schema.go:successor", "bind.go:checkSchemasOrder"]}
{"id": "C17", "title": "Go lenses must be exactly the entailed set", "statement": "For a lineage with strictly increasing versions starting at 0.0, BindLineage with ImperativeLenses succeeds exactly when the supplied lenses contain no duplicate, no nil mapper, and consist of precisely one reverse lens per adjacent pair of versions plus one forward lens per adjacent pair that crosses a major version. A missing lens is reported as ErrMissingLenses, an excess one as ErrErroneousLenses.", "quantifier": "all lineages and all lists of Go lenses in any order", "why_tests_cant": "Exact set characterisation over all lens lists.", "anchors": ["bind.go:checkGoLensCompleteness", "surface.go:ImperativeLenses"]}
{"id": "C18", "title": "Diagnostics for erroneous Go lenses name the right reason", "statement": "Documented by the code's own comments: an excess forward lens within a major is reported as 'minor version upgrades are handled automatically' and an excess forward lens across majors as connecting non-adjacent versions. Building the message never panics.", "quantifier": "all lineages and all excess lenses", "why_tests_cant": "Tests only check that some error occurs.", "anchors": ["bind.go:checkGoLensCompleteness"]}
{"id": "C19", "title": "Go translation reaches exactly the requested version", "statement": "For a lineage bound with Go lenses (strictly increasing from 0.0) and any target version in it, Translate either returns an Instance whose schema version is the target, having applied in order exactly the mappers of the adjacent backward or major-crossing version pairs between source and target, or returns the first error (mapper error, nil instance or wrong version). It never panics and never loops.", "quantifier": "all lineages, all mapper functions that return errors, nil or Instances of the lineage (others: C21), all source and target versions", "why_tests_cant": "Mapper functions are arbitrary; path lengths are unbounded.", "anchors": ["instance.go:translateGo", "instance.go:Translate", "bind.go:checkGoLensCompleteness"]}
{"id": "C20", "title": "Forward Go translation within a major version changes nothing but the version", "statement": "Translating an Instance with Go lenses to a later version of the same major calls no mapper, cannot fail, and returns the same data labelled with the target schema; translating to its own version returns the Instance itself.", "quantifier": "all lineages, instances and targets of the same major", "why_tests_cant": "Universal over data and over chain length.", "anchors": ["instance.go:translateGo", "instance.go:AsSuccessor"]}
{"id": "C21", "title": "Go lens results belong to the lineage and are valid for the target", "statement": "Documented: it is enforced at run time that Go lenses return an Instance of the schema they claim. Hence the result of a successful Go translation is valid data for the target schema of the same lineage.", "quantifier": "all mapper functions, including ones returning instances of other lineages", "why_tests_cant": "Mappers are arbitrary functions.", "anchors": ["instance.go:translateGo", "vmux/typed.go:NewTypedMux"]}
{"id": "C22", "title": "Declared CUE lenses are in order", "statement": "BindLineage (without Go lenses) accepts the list of CUE lenses exactly when every lens has decodable 'to' and 'from' versions and the list is sorted non-decreasingly by (to, from); otherwise the error is ErrInvalidLensesOrder or ErrInvalidLineage.", "quantifier": "all lens lists", "why_tests_cant": "Exact characterisation over lists of any length.", "anchors": ["bind.go:checkLensesOrder", "bind.go:doCheck", "bind.go:newLensVersionDef"]}
{"id": "C23", "title": "CUE lenses are complete", "statement": "Documented ('To be valid, a lineage must define the exact set of explicit lenses entailed by its set of schema versions'): BindLineage accepts a lineage with CUE lenses only if exactly the entailed lenses are present, each once.", "quantifier": "all lineages and lens lists", "why_tests_cant": "Quantifies over all lens lists.", "anchors": ["bind.go:checkLensesOrder", "lineage.cue:lenses"]}
{"id": "C24", "title": "Native position of a version is right up to major 2", "statement": "For every densely numbered lineage, the position the CUE library computes for a version of major 0, 1 or 2 (_flatidx, from _counts and _basis) is the index of the schema with that version. If the lineage has no further majors the library accepts it and, with two or more schemas, _counts holds the number of versions of each major.", "quantifier": "all such lineages, all versions in them", "why_tests_cant": "Universal over the numbers of minors per major.", "anchors": ["lineage.cue:_counts", "lineage.cue:_basis", "lineage.cue:_flatidx"]}
{"id": "C25", "title": "Native position of a version is right for every lineage", "statement": "Documented (_counts 'tracks the number of versions in each major', _basis 'keeps the index of the first schema in each major'): for every densely numbered lineage the library accepts it and computes the right position of each version.", "quantifier": "all densely numbered lineages", "why_tests_cant": "Fails only from four major versions on, more than any test lineage has.", "anchors": ["lineage.cue:_counts", "lineage.cue:_basis", "lineage.cue:_flatidx"]}
{"id": "C26", "title": "CUE translation goes through exactly the adjacent versions", "statement": "For every densely numbered lineage with exactly the entailed CUE lenses in order, translating between any two versions of majors 0 to 2 applies, for each adjacent pair on the way, the lens declared for that pair (or plain unification with the next schema for a minor upgrade), and ends at the target version; an error arises only if some lens result does not conform to its schema.", "quantifier": "all such lineages, lens bodies, data, sources and targets", "why_tests_cant": "Universal over chain lengths and lens behaviours.", "anchors": ["translate.cue:#Translate", "instance.go:Translate"]}
{"id": "C27", "title": "A successful CUE translation yields valid data for the target schema", "statement": "Whatever the lenses do, if Translate (CUE lenses) returns an Instance then its schema is the schema of the requested version and its data validates against that schema; otherwise it returns no Instance and a non-nil error.", "quantifier": "all lineages, lenses, data and existing targets", "why_tests_cant": "Lens bodies are arbitrary.", "anchors": ["instance.go:Translate", "schema.go:schemaDef.Validate"]}
{"id": "C28", "title": "Every translation error is an ErrInvalidLens", "statement": "Documented: all errors returned from Translate are children of ErrInvalidLens.", "quantifier": "all lineages, lenses (Go or CUE) and data", "why_tests_cant": "Ranges over all failure paths.", "anchors": ["instance.go:Translate", "errors/errors.go"]}
{"id": "C29", "title": "Lacunas emitted by lenses reach the caller", "statement": "Documented: Translate returns any lacunas accumulated along the way, i.e. every lacuna of an applied lens whose condition holds.", "quantifier": "all lineages, lenses and data", "why_tests_cant": "Ranges over all lens lists; the golden files record empty results.", "anchors": ["instance.go:Translate", "translate.cue:#Translate", "lacuna.cue:#Lacuna"]}
{"id": "C30", "title": "Translate and AsSuccessor/AsPredecessor need an existing neighbour or target", "statement": "Translate panics exactly when the target version is absent (CUE lenses); AsSuccessor on the latest and AsPredecessor on the first schema panic; in all other cases on strictly increasing lineages from 0.0 they return an Instance or an error.", "quantifier": "all lineages, instances and versions", "why_tests_cant": "Universal over positions.", "anchors": ["instance.go:AsSuccessor", "instance.go:AsPredecessor", "instance.go:Translate"]}
{"id": "C31", "title": "Version multiplexing: accept every version, see one", "statement": "For every lineage with strictly increasing versions from 0.0, an untyped mux for schema S given bytes b: if b does not decode, returns the decode error; else if the data validates against S returns it unchanged as an Instance of S; else takes the newest other schema that validates it and returns its translation to S; else returns an error that wraps S's validation error. In every success the Instance is at S's version.", "quantifier": "all lineages, targets, byte strings, decoders, validity patterns and lens behaviours", "why_tests_cant": "Universal over all inputs and validity patterns.", "anchors": ["vmux/untyped.go:NewUntypedMux", "vmux/mux.go:latest", "vmux/mux.go:allvstr"]}
{"id": "C32", "title": "Typed, value and byte muxes agree with the untyped mux", "statement": "On every input the typed mux succeeds exactly when the untyped mux does and with the same data; the byte mux returns the encoding of that data and the value mux its decoded Go value, with the same error otherwise; the typed mux does not panic when lenses return instances of the lineage's own schemas.", "quantifier": "all lineages, inputs, codecs and lens behaviours", "why_tests_cant": "Universal over inputs; panics would appear only for unusual lenses.", "anchors": ["vmux/typed.go", "vmux/byte.go", "vmux/value.go"]}
{"id": "C33", "title": "Hydrate fills defaults and keeps the instance valid", "statement": "Documented: Hydrate returns a copy of the instance with all default values specified by the schema included. So the result has the instance's fields unchanged, gains exactly the missing fields that have defaults, is still valid, and hydrating twice equals hydrating once.", "quantifier": "all schemas and instances (in the modelled fragment of CUE)", "why_tests_cant": "Universal over nested schemas and data.", "anchors": ["instance.go:Hydrate", "hydrate.go:doHydrate"]}
{"id": "C34", "title": "Dehydrate removes defaults and nothing else", "statement": "Documented: Dehydrate returns a copy of the instance with all default values specified by the schema removed. So it never changes or adds a value, and every removed value equals the schema's default for it.", "quantifier": "all schemas and instances (in the modelled fragment of CUE)", "why_tests_cant": "Universal over nested schemas and data.", "anchors": ["instance.go:Dehydrate", "hydrate.go:doDehydrate"]}
{"id": "C35", "title": "IsAppendOnly accepts exactly schema-preserving extensions", "statement": "IsAppendOnly(old, new) returns nil exactly when new has at least as many schemas as old and the i-th declared schema of new equals (mutually subsumes) the i-th of old for every i in old; when the evaluator's equality is an equivalence, the relation is reflexive and transitive, and mutual append-only lineages have the same schemas.", "quantifier": "all pairs and triples of lineages", "why_tests_cant": "Exact characterisation over lineages of any length.", "anchors": ["lineage.go:IsAppendOnly", "internal/cuetil/equal.go:Equal"]}
{"id": "C36", "title": "IsAppendOnly protects everything published", "statement": "Documented: it returns an error if old schemas are updated or deleted. Since a published schema consists of its version, its body and the joinSchema it is unified with, a changed version or changed effective schema must be reported.", "quantifier": "all pairs of bound lineages", "why_tests_cant": "Ranges over all edits of a lineage.", "anchors": ["lineage.go:IsAppendOnly"]}
{"id": "C37", "title": "Validation failures are never lost and always classified as invalid data", "statement": "Whenever the CUE evaluator reports that data does not conform to a schema, Validate returns no Instance and a non-nil error matching ErrInvalidData, for every list and shape of underlying CUE errors (unless composing the message panics, see C38); each recognised CUE error yields one entry, in order, with the matching validation code (missing, excess, out of bounds, kind conflict).", "quantifier": "all lists of CUE errors", "why_tests_cant": "The shapes of CUE errors are open-ended.", "anchors": ["validate.go:mungeValidateErr", "schema.go:schemaDef.Validate", "errors/errors.go"]}
{"id": "C38", "title": "Every violation is reported to the user", "statement": "Each individual CUE error of a failed validation appears in the returned message, with the path of the offending field; producing the message never panics.", "quantifier": "all lists of CUE errors and all error paths", "why_tests_cant": "Ranges over all error paths and shapes.", "anchors": ["validate.go:mungeValidateErr", "validate.go:trimThemaPath"]}
{"id": "C39", "title": "Human readable type names", "statement": "The type name shown in validation messages is obtained by replacing, in each alternative of a disjunction, exactly the known bound expressions by their CUE type name and leaving all other alternatives untouched; number and order of alternatives is preserved and applying it twice changes nothing more.", "quantifier": "all type expressions (strings)", "why_tests_cant": "Universal over strings.", "anchors": ["validate.go:humanReadableCUEType"]}
{"id": "C40", "title": "Legacy lineages are rewritten to densely numbered lineages with the exact lens set", "statement": "For every legacy lineage with non-empty sequences, the rewrite emits its schemas in order, numbered densely from 0.0 by sequence and position, and emits exactly the lenses the new lineage entails (one reverse per adjacent pair, one forward per major step), each once, in the order BindLineage requires.", "quantifier": "all legacy lineages (any number and length of sequences)", "why_tests_cant": "Universal over shapes of the sequence list.", "anchors": ["encoding/cue/rewrite.go:extractParts", "bind.go:doCheck"]}
{"id": "C41", "title": "Legacy rewriting is safe for empty sequences", "statement": "Rewriting a legacy lineage never emits a lens naming a version that the rewritten lineage does not contain.", "quantifier": "all legacy lineages, including ones with an empty sequence", "why_tests_cant": "Only malformed inputs trigger it.", "anchors": ["encoding/cue/rewrite.go:extractParts"]}
{"id": "C42", "title": "Lock discipline of the runtime", "statement": "Under every interleaving of any number of concurrent API calls on one Runtime, a call that mutates the shared CUE context under the write lock never overlaps with any lock-holding evaluation, every lock taken is released, no call acquires the lock while holding it, and some unfinished call can always proceed (no deadlock).", "quantifier": "all numbers of goroutines, all call sequences and all schedules", "why_tests_cant": "Schedules cannot be enumerated by tests.", "anchors": ["runtime.go:Runtime", "lineage.go:BindLineage", "schema.go:Validate", "runtime.go:cueArgs.make"]}
{"id": "C43", "title": "All CUE evaluation on a runtime is guarded", "statement": "Documented: the mutex guards CUE operations that are not safe for concurrent use. Hence no evaluation of shared CUE values by any exported call overlaps with a concurrent BindLineage or Translate on the same Runtime.", "quantifier": "all schedules of exported calls", "why_tests_cant": "Data races depend on the schedule.", "anchors": ["instance.go:Hydrate", "instance.go:Dehydrate", "schema.go:BindType", "schema.go:Examples", "instance.go:Value"]}
{"id": "C44", "title": "BindLineage unifies a candidate with #Lineage exactly once", "statement": "For every way the candidate value was composed, the value stored in the lineage is unified exactly once with #Lineage, and all other conjuncts of the candidate are kept.", "quantifier": "all conjunct lists", "why_tests_cant": "Universal over compositions.", "anchors": ["lineage.go:BindLineage", "internal/cuetil/split.go:AppendSplit"]}
{"id": "C45", "title": "Splitting a value into conjuncts loses none", "statement": "AppendSplit returns, in order, the leaves of the expression tree of the given operator, omitting only arguments equal to an earlier sibling and values that do not exist; the results joined by that operator are equivalent to the input (for conjunctions, if all values exist); it terminates.", "quantifier": "all expression trees and all operators", "why_tests_cant": "Universal over trees.", "anchors": ["internal/cuetil/split.go:AppendSplit"]}
{"id": "C46", "title": "AssignableTo accepts exactly the documented Go types", "statement": "For every schema and Go struct type in the modelled fragment, AssignableTo returns nil exactly when the documented rules hold (same fields on both sides, list openness matches, scalar ranges contained, any accepts everything, one pointer level).", "quantifier": "all schemas and Go types", "why_tests_cant": "Universal over nested types.", "anchors": ["assignable.go:assignable"]}
{"id": "C47", "title": "Values bound by AssignableTo never lose data", "statement": "If a schema is assignable to a Go type then all scalar values valid for a field are representable in the corresponding Go field.", "quantifier": "all schemas, Go types and data", "why_tests_cant": "Universal over data.", "anchors": ["assignable.go:assignable"]}
{"id": "C48", "title": "Path prefix helpers", "statement": "PathHasPrefix(p, q) holds exactly when p starts with q up to optionality; ReplacePathPrefix(p, old, new) equals new followed by the rest exactly when old is a proper prefix of p and p otherwise; replacing back restores p; path equality is an equivalence.", "quantifier": "all paths", "why_tests_cant": "Universal over paths.", "anchors": ["internal/cuetil/path.go"]}
{"id": "C49", "title": "TrimPathPrefix strips the prefix only if it is present", "statement": "Documented: it strips the provided prefix from the provided path, if the prefix exists; so a path that does not begin with the prefix is returned unchanged.", "quantifier": "all paths", "why_tests_cant": "Universal over paths.", "anchors": ["internal/cuetil/path.go:TrimPathPrefix"]}
{"id": "C50", "title": "Sanitised labels", "statement": "SanitizeLabelString keeps exactly the ASCII letters, digits and underscores of its input, in order; it is idempotent and distributes over concatenation; its output is unchanged for legal labels.", "quantifier": "all strings", "why_tests_cant": "Universal over strings.", "anchors": ["internal/util/util.go:SanitizeLabelString"]}
{"id": "C51", "title": "JSON Schema output has no OpenAPI-only keywords", "statement": "For every OpenAPI document, after conversion no schema node reached by the conversion carries deprecated, discriminator, example, externalDocs, nullable, readOnly, writeOnly or xml; a nullable type becomes the two-element list of the type and null; properties of that name are kept; nothing else is removed.", "quantifier": "all OpenAPI documents", "why_tests_cant": "Universal over document trees.", "anchors": ["encoding/jsonschema/jschema.go:process", "encoding/jsonschema/jschema.go:scan"]}
{"id": "C52", "title": "$schema appears on the root only", "statement": "Documented by comment: the $schema field is added to the root only.", "quantifier": "all OpenAPI documents", "why_tests_cant": "Universal over document trees.", "anchors": ["encoding/jsonschema/jschema.go:process"]}
{"id": "C53", "title": "OpenAPI generation accepts exactly the existing subpaths", "statement": "Documented: Subpath specifies a path within the schema to be translated; a subpath that exists in the schema is accepted, one that does not is rejected.", "quantifier": "all schemas and subpaths of any depth", "why_tests_cant": "Universal over depth.", "anchors": ["encoding/openapi/oapi.go:genSchema", "encoding/openapi/oapi.go:pathAllowed"]}
{"id": "C54", "title": "Module root search", "statement": "findCueMod returns the nearest ancestor directory (or the directory itself) that holds a cue.mod/module.cue, stops with ErrNotExist if there is none below the filesystem root, and terminates for every path.", "quantifier": "all directory trees and start paths", "why_tests_cant": "Universal over depth and layouts.", "anchors": ["cmd/thema/load.go:findCueMod"]}
{"id": "C55", "title": "Package selection", "statement": "Given any list of loaded CUE packages, the CLI selects a lineage exactly when it is the only package that binds (or the only package), reports ambiguity when two or more of several bind, and reports the first package's error when none binds.", "quantifier": "all lists of load results", "why_tests_cant": "Universal over lists.", "anchors": ["cmd/thema/load.go:buildInsts"]}
{"id": "C56", "title": "CLI data commands follow their help text", "statement": "Documented: validate-any prints nothing and fails when no schema matches and no version was given; hydrate and dehydrate without -v check the data against all schemas of the lineage.", "quantifier": "all lineages, data and flags", "why_tests_cant": "Universal over inputs.", "anchors": ["cmd/thema/data.go:runValidateAny", "cmd/thema/data.go:runHydrate", "cmd/thema/data.go:runDehydrate", "cmd/thema/load.go:dynLoad"]}
{"id": "C57", "title": "CLI translate", "statement": "translate prints a result exactly when some schema of the lineage validates the data and its translation to the requested version succeeds; the reported source version is that of the oldest validating schema and the reported target version is the requested one.", "quantifier": "all lineages, data and targets", "why_tests_cant": "Universal over inputs.", "anchors": ["cmd/thema/data.go:runTranslate"]}
{"id": "C58", "title": "Input format selection", "statement": "With no --format, JSON is tried first and YAML second and the data of the first success is used; an explicit format uses only that codec; an unknown format is an error.", "quantifier": "all inputs and flags", "why_tests_cant": "Universal over inputs and codecs.", "anchors": ["cmd/thema/data.go:validateDataInput"]}
{"id": "C59", "title": "Typed instances are bound to their own schema only", "statement": "BindInstanceType succeeds exactly when the instance's schema is the very schema the typed schema was made from; ValidateTyped succeeds exactly when Validate does, with the same data.", "quantifier": "all instances and typed schemas", "why_tests_cant": "Universal over lineages.", "anchors": ["instance.go:BindInstanceType", "schema.go:schemaIs", "schema.go:ValidateTyped"]}
{"id": "C60", "title": "Generated Go factories have consistent names", "statement": "For every configuration, the generated binding declares the base factory exactly once, a convergent binding declares a second factory with a different name that calls it, and private factories are unexported.", "quantifier": "all binding configurations and lineage names", "why_tests_cant": "Universal over names and option combinations.", "anchors": ["encoding/gocode/gen.go:GenerateLineageBinding", "encoding/gocode/binding.tmpl"]}
{"id": "C61", "title": "Generated Go types: renaming keeps references consistent", "statement": "After removal of underscores from generated Go type names, no declared type name or type reference in fields (identifiers, pointers, slices, maps, nested structs) contains an underscore, and every reference that resolved to a declared type still resolves to the renamed type.", "quantifier": "all generated Go files", "why_tests_cant": "Universal over type trees.", "anchors": ["encoding/gocode/decorators.go:fixUnderscoreInTypeName"]}
{"id": "C62", "title": "Pointer removal in generated Go types", "statement": "depointerizer removes the pointer from exactly the fields that point to slices or maps (or all pointer fields when asked to), one level, and changes no other field type; applying it again changes nothing unless there were double pointers.", "quantifier": "all generated Go files", "why_tests_cant": "Universal over type trees.", "anchors": ["encoding/gocode/decorators.go:depointerizer"]}
{"id": "C63", "title": "Bind options", "statement": "The order of bind options does not matter for SkipBuggyChecks, Go lenses given in several options are concatenated in order, and SkipBuggyChecks has no effect when verification is forced by the environment.", "quantifier": "all lists of options", "why_tests_cant": "Universal over option lists.", "anchors": ["surface.go:SkipBuggyChecks", "surface.go:ImperativeLenses", "lineage.go:BindLineage"]}
{"id": "C64", "title": "Overlay of a file system", "statement": "ToOverlay with an absolute prefix maps every regular file of the FS, and nothing else, to its content under the prefix, keeps other entries of the overlay, and rejects a relative prefix without touching the overlay.", "quantifier": "all file trees and overlays", "why_tests_cant": "Universal over trees.", "anchors": ["internal/util/util.go:ToOverlay", "load/load.go:ToOverlay"]}
{"id": "C65", "title": "BindLineage fails only in documented ways", "statement": "For every candidate value and every option list, BindLineage terminates; an error matches exactly one of the seven lineage sentinels of the errors package, except duplicate or nil Go migrations, which match none; it panics only if the candidate is a conjunction of nothing but several #Lineage references.", "quantifier": "all candidates, option lists and evaluators", "why_tests_cant": "Universal over evaluator results and options.", "anchors": ["lineage.go:BindLineage", "bind.go", "errors/errors.go"]}
{"id": "C66", "title": "Legacy lens bodies refer to the new names", "statement": "Rewriting a legacy lens replaces every reference to from and to in its mapper and lacunas by input and result, and changes nothing else, so that no reference to the old names remains.", "quantifier": "all lens bodies", "why_tests_cant": "Universal over syntax trees.", "anchors": ["encoding/cue/rewrite.go:rewriteFromTo"]}
{"id": "C67", "title": "JSON Schema accepts the same data as the OpenAPI schema", "statement": "The JSON Schema produced by the conversion accepts exactly the data that the OpenAPI schema accepted: nullable becomes a null alternative and exclusive bounds become the numeric form, nothing else changes the meaning.", "quantifier": "all OpenAPI schemas and all data", "why_tests_cant": "Universal over schemas and data.", "anchors": ["encoding/jsonschema/jschema.go:process", "encoding/jsonschema/jschema.go:scan", "encoding/jsonschema/jschema.go:checkNull"]}
{"id": "C68", "title": "OpenAPI document title, version and components", "statement": "The document generated for a schema has the schema's version and the title RootName, else the last label of Subpath, else the sanitized lineage name; with Group the components are those of the top-level fields, one generation per field, and RootName and Subpath are ignored; with SplitSchema the components of the schema and of its join are concatenated.", "quantifier": "all schemas, names and configurations", "why_tests_cant": "Universal over configurations and generator results.", "anchors": ["encoding/openapi/oapi.go:GenerateSchema", "encoding/openapi/oapi.go:genGroup", "encoding/openapi/oapi.go:genSingle", "encoding/openapi/oapi.go:genSchema"]}
{"id": "C69", "title": "OpenAPI reference names", "statement": "References inside the generated document are named by their path below the schema, different values get different names, and the caller's Config is not modified.", "quantifier": "all reference paths and configurations", "why_tests_cant": "Universal over paths and call sequences.", "anchors": ["encoding/openapi/oapi.go:nfSingle", "encoding/openapi/oapi.go:trimThemaPathPrefix", "encoding/openapi/oapi.go:GenerateSchema"]}
{"id": "C70", "title": "Explicit input formats", "statement": "When --format names a format, the input, from stdin or from a file of any name, is decoded with that format's codec.", "quantifier": "all inputs", "why_tests_cant": "Universal over inputs and file names.", "anchors": ["cmd/thema/data.go:validateDataInput", "cmd/thema/data.go:pathOrStdin"]}
{"id": "C71", "title": "Loader configuration", "statement": "The loader looks at exactly the directory of the lineage path, and at exactly the file if the path is a file, wherever the module root is; the module is the nearest one at or above it, or a virtual one in that directory; thema's own CUE files are laid over it unless the module is thema itself; an unreadable or invalid module file stops loading.", "quantifier": "all file systems and lineage paths", "why_tests_cant": "Universal over layouts.", "anchors": ["cmd/thema/load.go:dynLoad", "cmd/thema/load.go:findCueMod"]}
{"id": "C72", "title": "Union wrappers in generated Go become any", "statement": "The generated file loses exactly its functions, the wrapper structs of unions (a single json.RawMessage field and methods) and the nameless members of unions; all other declarations stay in their order, and in them exactly the references to wrappers become any.", "quantifier": "all generated Go files", "why_tests_cant": "Universal over files; deletion while traversing depends on neighbouring declarations.", "anchors": ["encoding/gocode/decorators.go:fixRawData", "encoding/gocode/decorators.go:withoutRawData"]}
{"id": "C73", "title": "Discovered imports are reported", "statement": "Postprocessing fails exactly when goimports added an import to what it was given (unless told to ignore that), and otherwise returns what goimports made of the file after all appliers ran in order.", "quantifier": "all files, appliers and tool results", "why_tests_cant": "Universal over appliers.", "anchors": ["encoding/gocode/postprocessing.go:PostprocessGoFile"]}
{"id": "C74", "title": "Package name of generated Go types", "statement": "Documented: if PackageName is empty, the lowercase version of Lineage.Name() is used. The generated types go through pointer removal, union removal, renaming, comment fixing and then the caller's functions, and the caller's configuration can be used again for another schema.", "quantifier": "all lineages and configurations", "why_tests_cant": "Universal over names and call sequences.", "anchors": ["encoding/gocode/gen.go:GenerateTypesOpenAPI"]}
{"id": "C75", "title": "AssignableTo reports every field that does not fit, under its own path", "statement": "When AssignableTo fails, the collected errors name exactly the fields that do not fit, each under the path it has in the schema, and no error replaces another.", "quantifier": "all schemas and Go types", "why_tests_cant": "The errors are kept in a map keyed by path; collisions only show for particular nestings of names.", "anchors": ["assignable.go:checkstruct", "assignable.go:assignable", "error.go"]}
{"id": "C76", "title": "Schema.Validate accepts exactly the valid data", "statement": "Schema.Validate accepts data exactly when the schema evaluated against the data is concrete data, and the returned instance carries the data unchanged.", "quantifier": "all schemas of the CUE fragment, all data", "why_tests_cant": "The result depends on closedness, optional fields, defaults and pattern constraints at every depth; tests try a few shapes.", "anchors": ["schema.go:Validate", "schema.go:_validate"]}
{"id": "C77", "title": "Data valid for a version stays valid for later versions of the same major", "statement": "In a lineage bound with the compatibility checks on, whatever data a schema accepts is accepted by every later schema of the same major, provided fields that were filled stay filled.", "quantifier": "all lineages over the CUE fragment, all data, all pairs of versions", "why_tests_cant": "It is an induction over the versions in between and over the structure of schemas and data.", "anchors": ["bind.go:checkGoValidity", "internal/compat/compat.go:ThemaCompatible", "schema.go:Validate"]}
{"id": "C78", "title": "Translating forward within a major keeps all data", "statement": "When an instance is translated to a later version of the same major with CUE lenses, the data of the result contains everything the original data contained, with the same values, and agrees with every schema on the way.", "quantifier": "all lineages over the CUE fragment with the entailed lenses, all data, all pairs of versions of one major", "why_tests_cant": "Fields may be lost or changed only for particular data and nesting; tests cannot try all of them.", "anchors": ["translate.cue:#Translate", "instance.go:Translate"]}
{"id": "C79", "title": "Valid data can be translated forward within a major unchanged", "statement": "An instance that is valid for its schema can be translated to every later version of the same major, and complete data comes out unchanged.", "quantifier": "all lineages over the CUE fragment bound with compatibility checks, all data, all pairs of versions of one major", "why_tests_cant": "Failures only show for data that relies on defaults or for particular combinations of minor versions.", "anchors": ["translate.cue:#Translate", "instance.go:Translate", "bind.go:checkGoValidity"]}
{"id": "C80", "title": "The loader accepts exactly usable module file systems", "statement": "InstanceWithThema fails with ErrFSNotACueModule exactly when the file system has no readable cue.mod/module.cue with a non-empty module name, has a directory cue.mod/pkg/github.com/grafana/thema, or has a directory under cue.mod (outside gen and usr) that cannot be listed; otherwise it loads the first instance of the module of that name.", "quantifier": "all file systems, directories, options and module files", "why_tests_cant": "File systems are unbounded trees; whether anything below cue.mod stops or redirects the walk depends on every path in them.", "anchors": ["load/load.go:InstanceWithThema"]}
{"id": "C81", "title": "The overlay holds every file of the module and of thema, each at its place", "statement": "The overlay passed to CUE maps every file of the given file system to its content below the module root, and every file of thema below cue.mod/pkg/github.com/grafana/thema of that root; nothing is hidden and nothing else is there. For the module of thema itself its embedded files take precedence. A file that cannot be read fails the load.", "quantifier": "all readable file systems, module names, directories and options", "why_tests_cant": "A clash between injected and given files happens for particular trees only.", "anchors": ["load/load.go:InstanceWithThema", "internal/util/util.go:ToOverlay"]}
{"id": "C82", "title": "Directory and package that are loaded", "statement": "A directory a/b/c of the module is loaded with package name c; the empty string and . load the root with the final element of the module name as package; the last Package option overrides; documented for the root directory in general.", "quantifier": "all module names, directories and options", "why_tests_cant": "Particular spellings of the same directory behave differently (./), which a finite set of tests misses.", "anchors": ["load/load.go:InstanceWithThema", "load/load.go:Package"]}
{"id": "C83", "title": "AsModFS makes a module of any file system", "statement": "AsModFS returns the file system itself if it has cue.mod/module.cue and otherwise adds only that file, keeping all others; the result is a module of the given name. Documented as a no-op if a cue.mod exists.", "quantifier": "all file systems and module names", "why_tests_cant": "Names with characters special to CUE strings and cue.mod directories without module file are unusual inputs.", "anchors": ["load/load.go:AsModFS"]}
{"id": "C84", "title": "gen openapi and gen jsonschema print the generated document", "statement": "With a recognised format, the command prints exactly the encoded document on standard output and exits with 0; if generation or encoding fails it prints the error on standard error only and exits with 1. A document is printed whenever the exit status is 0.", "quantifier": "all documents, encodings, formats and errors", "why_tests_cant": "Documents contain arbitrary text (descriptions, patterns, constants); tests use a few schemas without special characters.", "anchors": ["cmd/thema/lineage_subgen.go:runOpenAPI", "cmd/thema/lineage_subgen.go:runJSONSchema", "cmd/thema/lineage_subgen.go:run"]}
{"id": "C85", "title": "Flags of gen have the meaning and defaults their help names", "statement": "For every gen command and every list of flags given, the last value given for a flag is used, a flag not given has the default shown in its help, and unknown flags are rejected. With --stdout the Go code is printed and nothing is written.", "quantifier": "all commands and lists of flags with values", "why_tests_cant": "The commands share one set of variables; interactions between the definitions of different commands are not visible to a test of one command.", "anchors": ["cmd/thema/lineage_subgen.go:setup", "cmd/thema/lineage_subgen.go:runGoTypes", "cmd/thema/lineage_subgen.go:runGoBindings"]}
{"id": "C86", "title": "Generated Go files are written next to the lineage", "statement": "gen gotypes and gen gobindings write exactly one file, named after the lower-cased lineage name, in the directory of the lineage, containing the header and the generated code; if anything fails they write nothing and exit with 1.", "quantifier": "all lineage names, paths, codes and write errors", "why_tests_cant": "Lineage names are arbitrary strings.", "anchors": ["cmd/thema/lineage_subgen.go:runGoTypes", "cmd/thema/lineage_subgen.go:runGoBindings"]}
{"id": "C87", "title": "gen gobindings finds the innermost module", "statement": "The CUE module is the nearest directory at or above the lineage with a readable cue.mod/module.cue, the Go module the nearest directory below that with a go.mod; errors are reported exactly when the module file found is invalid or a go.mod that is needed cannot be read. It is the same CUE module the lineage was loaded from.", "quantifier": "all file systems and paths", "why_tests_cant": "Paths are unboundedly deep and module files may be anywhere along them.", "anchors": ["cmd/thema/lineage_subgen.go:findModRoot", "cmd/thema/load.go:findCueMod"]}
{"id": "C88", "title": "The generated bindings load the lineage they were generated for", "statement": "The configuration of the generated loader (embedded files, module name, directory) makes InstanceWithThema load the directory of the lineage with the package named like it.", "quantifier": "all file systems, module names, lineage directories and flags", "why_tests_cant": "Generated code runs later and elsewhere; that the configuration written by one component is understood by the other concerns all paths and module names.", "anchors": ["cmd/thema/lineage_subgen.go:runGoBindings", "encoding/gocode/binding.tmpl", "load/load.go:InstanceWithThema"]}
{"id": "C89", "title": "init empty prints a lineage with the name and package asked for", "statement": "NewLineage makes a file whose lineage has exactly the given name and whose package clause is the given package, absent if it is empty. init empty refuses a missing name, contradictory package flags and invalid package names, in this order, and otherwise prints such a file; the package defaults to the name.", "quantifier": "all names, packages, schemas and flag values", "why_tests_cant": "Names are arbitrary strings pasted into a text template that is parsed again.", "anchors": ["encoding/cue/encode.go:NewLineage", "cmd/thema/lineage_init.go:processPackageArgs", "cmd/thema/lineage_init.go:runEmpty"]}
{"id": "C90", "title": "init openapi and init jsonschema turn a document into a lineage", "statement": "Once the document is converted, the printed lineage has the name and package of the flags and imports what its schema refers to; a document that cannot be read is reported as an error.", "quantifier": "all documents, converted schemas and flag values", "why_tests_cant": "Documents are arbitrary; what CUE packages the converted schema needs depends on the keywords used.", "anchors": ["cmd/thema/lineage_init.go:runOpenAPI", "cmd/thema/lineage_init.go:runJSONSchema", "cmd/thema/lineage_init.go:inputToFile", "internal/astutil/get.go:ToExpr"]}
{"id": "C91", "title": "Syntax-tree helpers put a schema where its version says", "statement": "FindSeqs finds the first list labelled seqs; inserting a schema as a version replaces or appends exactly that schema of the lineage and nothing else, and versions without predecessor are refused; appending puts the schema under the version announced in its comment; ToExpr drops package and import clauses only.", "quantifier": "all syntax trees, lineages with any number of sequences and schemas, all versions", "why_tests_cant": "Trees are edited in place through pointers; nesting, position and the rest of the tree are unbounded.", "anchors": ["internal/astutil/get.go:FindSeqs", "internal/astutil/get.go:LatestSchemaList", "internal/astutil/get.go:SchemaListFor", "internal/astutil/get.go:GetFieldByLabel", "internal/astutil/get.go:ToExpr", "encoding/cue/encode.go:insertSchemaNodeAs", "encoding/cue/encode.go:appendlin"]}
{"id": "C92", "title": "thema lineage fix replaces the seqs field of the lineage", "statement": "RewriteLegacyLineage reports what it cannot rewrite; otherwise it returns the file with the lineage in which the field seqs is replaced by the new schemas and lenses and all else is kept, and lineage fix writes this file over the original.", "quantifier": "all package instances, files, lineage values and paths", "why_tests_cant": "Depends on which node of which file a value comes from; files are arbitrary trees.", "anchors": ["encoding/cue/rewrite.go:RewriteLegacyLineage", "encoding/cue/rewrite.go:findSeqsVal", "encoding/cue/rewrite.go:isStructLiteral", "cmd/thema/lineage_fix.go:do"]}
{"id": "C93", "title": "Generated Go names are exported identifiers", "statement": "The Go name made of any property or schema name is a valid exported Go identifier.", "quantifier": "all names", "why_tests_cant": "Names come from schemas; all strings and Unicode.", "anchors": ["internal/deepmap/oapi-codegen/pkg/codegen/utils.go:SchemaNameToTypeName", "internal/deepmap/oapi-codegen/pkg/codegen/utils.go:ToCamelCase", "internal/deepmap/oapi-codegen/pkg/codegen/utils.go:typeNamePrefix", "internal/deepmap/oapi-codegen/pkg/codegen/utils.go:SanitizeGoIdentity"]}
{"id": "C94", "title": "Different names get different Go names", "statement": "Two different properties of a schema never get the same Go field name.", "quantifier": "all pairs of names", "why_tests_cant": "Injectivity over all strings.", "anchors": ["internal/deepmap/oapi-codegen/pkg/codegen/utils.go:SchemaNameToTypeName"]}
{"id": "C95", "title": "Every enum value has a constant", "statement": "The constants generated for an enum stand for exactly its values, one for each.", "quantifier": "all lists of values", "why_tests_cant": "Numbering of clashing names can clash itself; needs the right list.", "anchors": ["internal/deepmap/oapi-codegen/pkg/codegen/utils.go:SanitizeEnumNames"]}
{"id": "C96", "title": "Descriptions stay comments", "statement": "Whatever the text of a description, each line of what is generated for it is a comment, and the lines of the text are kept in order.", "quantifier": "all texts", "why_tests_cant": "All strings with all kinds of line ends.", "anchors": ["internal/deepmap/oapi-codegen/pkg/codegen/utils.go:stringToGoCommentWithPrefix", "internal/deepmap/oapi-codegen/pkg/codegen/utils.go:StringWithTypeNameToGoComment", "internal/deepmap/oapi-codegen/pkg/codegen/utils.go:StringToGoComment", "internal/deepmap/oapi-codegen/pkg/codegen/utils.go:DeprecationComment"]}
{"id": "C97", "title": "Go types mirror their schemas", "statement": "The Go type generated for a schema has its structure: a struct with one field for each property, named and tagged after it, a pointer exactly when the property may be missing or null (read-only and write-only properties may be missing; raw JSON needs no pointer); slices, maps and scalar types as the type and format say; references become the names of their components.", "quantifier": "all documents without allOf (which is C98), of any nesting", "why_tests_cant": "The space of nested schemas and their positions is unbounded.", "anchors": ["internal/deepmap/oapi-codegen/pkg/codegen/schema.go:GenerateGoSchema", "internal/deepmap/oapi-codegen/pkg/codegen/schema.go:oapiSchemaToGoType", "internal/deepmap/oapi-codegen/pkg/codegen/schema.go:GenFieldsFromProperties", "internal/deepmap/oapi-codegen/pkg/codegen/schema.go:GenStructFromSchema", "internal/deepmap/oapi-codegen/pkg/codegen/codegen.go:GenerateTypesForSchemas", "internal/deepmap/oapi-codegen/pkg/codegen/codegen.go:GenerateTypes"]}
{"id": "C98", "title": "Composed schemas keep all parts", "statement": "The Go type of a schema with allOf has the properties of the schema and of all its parts.", "quantifier": "all compositions", "why_tests_cant": "Order, nesting and kinds of parts combine without bound.", "anchors": ["internal/deepmap/oapi-codegen/pkg/codegen/schema.go:GenerateGoSchema", "internal/deepmap/oapi-codegen/pkg/codegen/merge_schemas.go:mergeSchemas", "internal/deepmap/oapi-codegen/pkg/codegen/merge_schemas.go:mergeAllOf", "internal/deepmap/oapi-codegen/pkg/codegen/merge_schemas.go:mergeOpenapiSchemas"]}
{"id": "C99", "title": "Generated types are declared once", "statement": "Every type name used in the generated types is predeclared or declared in the same file, and none is declared twice.", "quantifier": "all documents", "why_tests_cant": "Needs all positions at which nested types arise.", "anchors": ["internal/deepmap/oapi-codegen/pkg/codegen/schema.go:GenerateGoSchema", "internal/deepmap/oapi-codegen/pkg/codegen/schema.go:GetAdditionalTypeDefs", "internal/deepmap/oapi-codegen/pkg/codegen/codegen.go:GenerateTypes"]}
{"id": "C100", "title": "Enum constants have the values of the enum", "statement": "The constants generated for an enum are valid Go, have different names and the values of the enum.", "quantifier": "all documents and values", "why_tests_cant": "All strings and all pairs of names.", "anchors": ["internal/deepmap/oapi-codegen/pkg/codegen/codegen.go:GenerateEnums", "internal/deepmap/oapi-codegen/pkg/codegen/schema.go:GetValues", "internal/deepmap/oapi-codegen/pkg/codegen/templates/constants.tmpl"]}
{"id": "C101", "title": "Data survives the generated Go types", "statement": "Data that a schema allows, read into the Go type generated for it and written again, is the same data.", "quantifier": "all documents of any nesting and all data", "why_tests_cant": "Both the schemas and the data are unbounded, and what is lost depends on how they combine.", "anchors": ["internal/deepmap/oapi-codegen/pkg/codegen/schema.go:GenerateGoSchema", "internal/deepmap/oapi-codegen/pkg/codegen/schema.go:GenFieldsFromProperties", "internal/deepmap/oapi-codegen/pkg/codegen/codegen.go:GenerateTypes", "encoding/gocode/decorators.go:depointerizer", "encoding/gocode/gen.go:GenerateTypesOpenAPI"]}
{"id": "C102", "title": "Comments are the descriptions", "statement": "Unless UseGoDeclInComments is set, the comment of a generated type or field is the description of its schema, without the name in front, and nothing else in the file changes.", "quantifier": "all names and descriptions", "why_tests_cant": "All strings, through two regular expressions with lazy and greedy repetition.", "anchors": ["encoding/gocode/decorators.go:fixTODOComments", "encoding/gocode/decorators.go:fixTODOComment", "encoding/gocode/decorators.go:removeGoFieldComment", "encoding/gocode/decorators.go:isTypeSpec", "encoding/gocode/gen.go:UseGoDeclInComments"]}
{"id": "C103", "title": "Two hops are one", "statement": "Translating an instance to a version between its own and the target, and the result on to the target, gives the same data or the same error as translating directly.", "quantifier": "all lineages, instances, pairs of versions and lens outcomes", "why_tests_cant": "Ranges over all lineages and all stops; defaults and incomplete data at the stop only matter for some lenses.", "anchors": ["instance.go:Translate", "instance.go:translateGo", "translate.cue:#Translate", "translate.cue:#Lacuna"]}
{"id": "C104", "title": "A mux takes its own output back", "statement": "Feeding the output of a mux for a schema to the same mux gives the same output again, without lacunas.", "quantifier": "all lineages, schemas, inputs and codecs that read back what they write", "why_tests_cant": "Ranges over all inputs and all lineages; the output has been through lenses the first time and is only validated the second.", "anchors": ["vmux/byte.go:NewByteMux", "vmux/untyped.go:NewUntypedMux", "instance.go:Translate"]}
{"id": "C105", "title": "Generated TypeScript", "statement": "The TypeScript generated for a schema has the types of its parts and, unless Group is set, the root type, named RootName or by default the title-cased lineage name, which is an identifier; with Group, RootName and RootAsType make no difference; one configuration can be used for several lineages.", "quantifier": "all schemas, configurations, lineage names and results of cuetsy", "why_tests_cant": "All names and all orders of calls that share a configuration.", "anchors": ["encoding/typescript/gen.go:GenerateTypes", "encoding/typescript/gen.go:TypeConfig"]}
{"id": "C106", "title": "Unions in generated Go code", "statement": "Where a schema may be one of several, the Go code generated for it has any there; the wrapper types, their methods and the types of the alternatives are gone; nothing else changes, what is left refers to nothing that is gone, and data comes back unchanged through it.", "quantifier": "all documents, names, imports, parsers of types and settings of NoOptionalPointers", "why_tests_cant": "Unions may be anywhere in a document and the pass looks only at some shapes of types; which declarations it removes depends on comments and on the positions of others.", "anchors": ["encoding/gocode/decorators.go:fixRawData", "encoding/gocode/decorators.go:withoutRawData", "internal/deepmap/oapi-codegen/pkg/codegen/codegen.go:GenerateTypes", "internal/deepmap/oapi-codegen/pkg/codegen/codegen.go:GenerateUnionBoilerplate", "internal/deepmap/oapi-codegen/pkg/codegen/codegen.go:GenerateAdditionalPropertyBoilerplate"]}
{"id": "C107", "title": "The joinSchema governs every schema", "statement": "In a lineage with a joinSchema, whatever a schema accepts is an instance of the joinSchema as well as of the schema as written, and has only fields that one of the two names; complete data that is an instance of both and has no other fields is accepted.", "quantifier": "all joinSchemas and schemas of the CUE fragment (for exactness: with unions of scalars only), all lineages, all data", "why_tests_cant": "The joinSchema and each schema are arbitrary and nest; closing applies at every depth.", "anchors": ["lineage.cue:#Lineage", "lineage.cue:#SchemaDef"]}
{"id": "C108", "title": "Finding the schema of data in CUE", "statement": "#ValidFor and #SearchAndValidate find the first schema that the data does not conflict with, which is at or before any that validates the data, and none when there is no such schema.", "quantifier": "all lineages of the CUE fragment, all data", "why_tests_cant": "The outcome depends on every earlier schema of the lineage; nothing in the repository calls these.", "anchors": ["traverse.cue:#SearchAndValidate", "traverse.cue:#ValidFor"]}
{"id": "C109", "title": "What is documented of the joinSchema", "statement": "The schemas defined in a lineage are instances of its joinSchema, and a lineage whose joinSchema changed is not an extension of the old one.", "quantifier": "all lineages", "why_tests_cant": "The checks that exist are on other values: the unified definition, and the schemas as written.", "anchors": ["lineage.cue:#Lineage", "lineage.go:IsAppendOnly"]}
{"id": "C110", "title": "The schema found in CUE is the one found in Go", "statement": "#SearchAndValidate and #ValidFor find the schema that ValidateAny finds, and #SearchAndValidate returns the data with it.", "quantifier": "all lineages and data", "why_tests_cant": "Needs data that is valid for several schemas, or incomplete.", "anchors": ["traverse.cue:#SearchAndValidate", "traverse.cue:#ValidFor", "lineage.go:ValidateAny"]}
{"id": "C111", "title": "The guarantee", "statement": "Input that is valid against any schema of a lineage is translatable to the schema the program expects, whichever schema of the lineage that is.", "quantifier": "all lineages that bind, all their schemas as source and target, all valid input", "why_tests_cant": "The claim is over every lineage, every pair of schemas and every input; it depends on each lens and each minor upgrade passed on the way.", "anchors": ["docs/overview.md:About Guarantees", "translate.go:Translate", "vmux/untyped.go:NewUntypedMux"]}
{"id": "C112", "title": "Publishing versions changes nothing for the published ones", "statement": "When further schemas and lenses are appended to a lineage, looking up a published version, validating data against it, ValidateAny on data that it knew, and translating between published versions give the same results and the same errors as before.", "quantifier": "all pairs of bound lineages of which one extends the other with the same schemas and lenses, all versions of the shorter, all data; any number of majors", "why_tests_cant": "It relates two lineages; the CUE library computes positions and lens indexes from whole lists, which grow.", "anchors": ["docs/overview.md:About Guarantees", "lineage.go:Schema", "lineage.go:ValidateAny", "instance.go:Translate", "translate.cue:#Translate", "lineage.cue:_basis"]}
{"id": "C113", "title": "A mux answers the same after publishing", "statement": "A mux for a version gives the same instance for the same input after further versions are appended to the lineage.", "quantifier": "all pairs of bound lineages of which one extends the other, all target versions and inputs that the shorter lineage accepts", "why_tests_cant": "The mux tries the schemas from the latest down, so the answer depends on schemas that do not exist yet.", "anchors": ["vmux/untyped.go:NewUntypedMux"]}
{"id": "C114", "title": "The authoring guide on compatible and breaking changes", "statement": "Publishing a schema that differs from the last one by compatible changes (optional fields, wider values, required to optional) works as a minor version and is rejected as a new major; a schema with a breaking change (a required field, a removed field, lost data, a replaced default), however deep, works as a new major and is rejected as a minor version; a default makes an added field compatible; changing a published default is always breaking.", "quantifier": "all bound lineages over the CUE fragment, all next versions, all schemas related by the two kinds of change at any depth", "why_tests_cant": "Tests show one lineage per kind of change; changes combine, and nest inside fields and lists.", "anchors": ["docs/authoring.md:Adding more schemas", "docs/authoring.md:Optional fields", "docs/authoring.md:Setting defaults", "docs/authoring.md:Safe breaking changes", "bind.go:checkGoValidity", "internal/compat/compat.go:ThemaCompatible", "testdata/invalidlineage/compat/change-default.txtar"]}
{"id": "C115", "title": "Declaration order is a recommendation", "statement": "The order of the schemas of a lineage and of its lenses, in CUE or as Go lenses, is \"recommended but not required\": any order of the same declarations gives the same lineage.", "quantifier": "all candidate lineages whose declarations are permutations of each other; all lists of Go lenses", "why_tests_cant": "Permutations of lists of any length.", "anchors": ["lineage.cue:schemas", "lineage.cue:lenses", "bind.go:checkSchemasOrder", "bind.go:doCheck", "bind.go:checkGoLensCompleteness"]}
{"id": "C116", "title": "Bind errors name the fault", "statement": "When BindLineage rejects a candidate, the error names the first thing that is wrong with it: the missing or non-concrete field, the first schema that is at fault together with the schema before it, or the first CUE lens out of order together with the lens before it. Whoever follows the advice to redeclare a compatible new major version as the next minor version gets a lineage.", "quantifier": "all evaluators, candidates, bind options, lists of schemas and of CUE lenses; the advice: all candidates of the CUE fragment that extend a lineage by one schema", "why_tests_cant": "A test pins the text for one bad lineage; that the reported schema is the first at fault, and that the proposed version is always accepted, is about every list of schemas.", "anchors": ["bind.go:65-172", "bind.go:310-364", "lineage.go:177-183"]}
{"id": "C117", "title": "Hint at the path of the lineage", "statement": "When there is no lineage at the root of a package and no CUE path was given, the data commands ask whether -p was forgotten.", "quantifier": "all file systems, packages, flags and data commands", "why_tests_cant": "The hint depends on the text of an error that another package composes; a test would have to know which errors can occur.", "anchors": ["cmd/thema/load.go:206-221", "bind.go:147-150"]}
{"id": "C118", "title": "Pruning keeps what is used", "statement": "Unless told to skip it, the Go code generator first removes the components of the OpenAPI document that are not used: it ends, it keeps every component a path or a kept component refers to, so that no reference is left without its target, and it removes the others. Thema sets SkipPrune, since its documents have no paths.", "quantifier": "all documents: paths, operations, callbacks, nine kinds of components nested to any depth, references in circles included", "why_tests_cant": "Which components stay is a fixed point over the graph of references; the tests prune three fixed documents without circles, headers with content or discriminators.", "anchors": ["internal/deepmap/oapi-codegen/pkg/codegen/prune.go:9-487", "internal/deepmap/oapi-codegen/pkg/codegen/codegen.go:108-110", "encoding/gocode/gen.go:108-112"]}
{"id": "C119", "title": "The exemplar lineages translate their data", "statement": "Every exemplar lineage binds, and data that is valid for one of its schemas translates to its other schemas, as its lenses and comments say.", "quantifier": "all valid data of the schemas of rename, narrowing, defaultchange, expand and disjunct; every evaluation fuel and readmask", "why_tests_cant": "The tests translate a few fixed inputs of some exemplars, in one direction; the exemplars are what the documentation points authors of lineages to.", "anchors": ["exemplars/rename.cue:1-42", "exemplars/narrowing.cue:1-55", "exemplars/defaultchange.cue:1-76", "exemplars/expand.cue:1-74", "exemplars/disjunct.cue:1-62", "exemplars/single.cue:1-19", "exemplars/exemplars.go:39-46", "exemplars/exemplars.go:144-151"]}
{"id": "C120", "title": "Generated Go code depends on nothing but the schema", "statement": "The Go code generated for a schema depends only on the schema and the configuration, not on code generated before or at the same time.", "quantifier": "all schedules of any number of calls of the generator, whatever it does with its own arguments, and all values its package-level variables can hold", "why_tests_cant": "The generator keeps its options, the document, the imports and the template functions in package-level variables; tests generate one document at a time.", "anchors": ["encoding/gocode/gen.go:101-123", "internal/deepmap/oapi-codegen/pkg/codegen/codegen.go:37-123", "internal/deepmap/oapi-codegen/pkg/codegen/codegen.go:249", "internal/deepmap/oapi-codegen/pkg/codegen/utils.go:318-363", "internal/deepmap/oapi-codegen/pkg/codegen/utils.go:751-859", "internal/deepmap/oapi-codegen/pkg/codegen/template_helpers.go:41", "internal/deepmap/oapi-codegen/pkg/codegen/template_helpers.go:280"]}
{"id": "C121", "title": "Imports of generated Go code", "statement": "Generated Go code imports every package that a schema of the document names as the origin of its Go type, and each package of the import mapping under a name of its own, in whatever order Go ranges over maps.", "quantifier": "all documents without paths, all extensions, all import mappings and all orders of their maps", "why_tests_cant": "The document and the mapping are maps, whose order differs between runs; a test sees few orders and few places where a schema can be.", "anchors": ["internal/deepmap/oapi-codegen/pkg/codegen/codegen.go:45-95", "internal/deepmap/oapi-codegen/pkg/codegen/codegen.go:900-1033", "internal/deepmap/oapi-codegen/pkg/codegen/utils.go:862-899", "internal/deepmap/oapi-codegen/pkg/codegen/extension.go:7-23"]}
{"id": "C122", "title": "The text of the error of AssignableTo", "statement": "The error that AssignableTo returns reads the same each time: one line for each misfit, which begins with its path and tells which rule is broken.", "quantifier": "all schemas and Go types, all orders in which Go ranges over a map, all renderings of paths, kinds and values", "why_tests_cant": "The order of a map differs between runs, and a test sees the texts of few misfits.", "anchors": ["assignable.go:344-360", "assignable.go:89-275"]}
{"id": "C123", "title": "Maps given on a command line", "statement": "A map written as key1:value1,key2:value2 is read as that map: quotes let keys and values hold commas and colons, and what is not such a list is refused with an error that names the first bad entry.", "quantifier": "all maps, all ways to write them, all inputs in UTF-8", "why_tests_cant": "Keys and values are any text; a test sees a few of them.", "anchors": ["internal/deepmap/oapi-codegen/pkg/util/inputmapping.go:8-29", "internal/deepmap/oapi-codegen/pkg/util/inputmapping.go:50-79"]}
{"id": "C124", "title": "Lists given on a command line", "statement": "A list written with commas is read as its words without the spaces around them; empty words are left out.", "quantifier": "all lists of words, all spaces around them, all inputs", "why_tests_cant": "Words and spaces are any text.", "anchors": ["internal/deepmap/oapi-codegen/pkg/util/inputmapping.go:31-48"]}
{"id": "C125", "title": "Parameters of a path", "statement": "The parameters of a path are found wherever the path has them, every router gets them in its own form with the rest of the path unchanged, and an operation gets each of its declared path parameters once, in the order of the path.", "quantifier": "all paths, all lists of declared parameters", "why_tests_cant": "Paths and declarations are any text; a test sees a few of them.", "anchors": ["internal/deepmap/oapi-codegen/pkg/codegen/utils.go:37", "internal/deepmap/oapi-codegen/pkg/codegen/utils.go:385-498", "internal/deepmap/oapi-codegen/pkg/codegen/operations.go:143-150", "internal/deepmap/oapi-codegen/pkg/codegen/operations.go:473-483", "internal/deepmap/oapi-codegen/pkg/codegen/operations.go:525-536"]}
{"id": "C126", "title": "Escaped paths", "statement": "A path escaped element by element is read as the same path, and elements that are parameters stay as they are.", "quantifier": "all paths", "why_tests_cant": "Elements are any bytes.", "anchors": ["internal/deepmap/oapi-codegen/pkg/codegen/utils.go:733-745"]}
{"id": "C127", "title": "Runtimes made at the same time", "statement": "Runtimes may be made from any number of goroutines at once: the thema package is loaded once, all Runtimes are built from the same instance, each in its own context, no call waits for ever, and no Runtime is made of a package that failed to load or validate.", "quantifier": "all numbers of calls, all contexts, all interleavings of their steps, all outcomes of loading and validating", "why_tests_cant": "Tests make Runtimes one after the other, from a package that is valid.", "anchors": ["runtime.go:16-54", "runtime.go:70-88"]}
{"id": "C128", "title": "Fields are tagged as their schema asks", "statement": "The field generated for a property has the name, the deprecation reason and exactly the tags that its schema and its extensions ask for; Go reads those tags back with the values asked for, and the order of maps makes no difference.", "quantifier": "all properties with all extensions, of any type, and all options about pointers", "why_tests_cant": "Tests generate a few fields with one well formed extension each and compare the text.", "anchors": ["internal/deepmap/oapi-codegen/pkg/codegen/schema.go:626-716", "internal/deepmap/oapi-codegen/pkg/codegen/schema.go:78-107", "internal/deepmap/oapi-codegen/pkg/codegen/extension.go:25-89"]}
{"id": "C129", "title": "Operations are left out by their tags", "statement": "With excluded and included tags, code is generated from exactly the operations that have no excluded tag and, if any tag is included, one of those, and from the components that these operations use.", "quantifier": "all documents, all tags of operations and all lists of excluded and included tags", "why_tests_cant": "Tests filter one document with one tag, and look for two operations in the generated code.", "anchors": ["internal/deepmap/oapi-codegen/pkg/codegen/filter.go:5-46", "internal/deepmap/oapi-codegen/pkg/codegen/codegen.go:107-110", "internal/deepmap/oapi-codegen/pkg/codegen/configuration.go:84-85"]}
{"id": "C130", "title": "The document inside the code is the document", "statement": "Code that is generated with its document inside declares a variable that Go reads and decodes to exactly that document.", "quantifier": "all documents, of any length, and any way of packing that can be undone", "why_tests_cant": "Tests decode the document of a few examples. Lengths around multiples of 3 and 80, and all bytes, are left out.", "anchors": ["internal/deepmap/oapi-codegen/pkg/codegen/inline.go:29-77", "internal/deepmap/oapi-codegen/pkg/codegen/templates/inline.tmpl:1-24"]}
{"id": "C131", "title": "Every operation of a document is defined, once and by its own name", "statement": "Every operation has one definition, in the order of paths and methods, with the parameters of its path and its own, its own security or else that of the document, and a Go name that no other operation has.", "quantifier": "all documents with any operations, identifiers, parameters and security requirements", "why_tests_cant": "Tests look at a document with a few operations, all of which have different identifiers.", "anchors": ["internal/deepmap/oapi-codegen/pkg/codegen/operations.go:155-206", "internal/deepmap/oapi-codegen/pkg/codegen/operations.go:475-609"]}
{"id": "C132", "title": "A generated client reads every response as the type declared for it", "statement": "The body of a response is read into the field and as the type that the document declares for its status and content type: for the status itself, or else for its hundred, or else for the default; each has a field of its own.", "quantifier": "all responses of an operation with any contents and schemas, all statuses and all headers", "why_tests_cant": "Tests parse a few responses of one content type each; which case of the switch comes first depends on how the keys of a map are spelled and sorted.", "anchors": ["internal/deepmap/oapi-codegen/pkg/codegen/operations.go:270-331", "internal/deepmap/oapi-codegen/pkg/codegen/template_helpers.go:28-45", "internal/deepmap/oapi-codegen/pkg/codegen/template_helpers.go:105-260"]}
{"id": "C133", "title": "Every content of a body and every response has a definition of its own", "statement": "For each content type of a request body there is one definition, with a type and functions that no other content has; for each response there is one definition, and no two responses share a type.", "quantifier": "all request bodies and responses with any contents, schemas, headers and references", "why_tests_cant": "Tests define one JSON body per operation; collisions need content types that are tagged alike, and the panic needs a content without a schema.", "anchors": ["internal/deepmap/oapi-codegen/pkg/codegen/operations.go:341-470", "internal/deepmap/oapi-codegen/pkg/codegen/operations.go:611-795", "internal/deepmap/oapi-codegen/pkg/util/isjson.go:5-7"]}
{"id": "C134", "title": "Every parameter of an operation is a field or a variable of its own", "statement": "The parameter type of an operation has one field for each query, header and cookie parameter, with its description, type, style and whether it is required; generated code uses the names these fields have; fields and variables of different parameters have different, valid names.", "quantifier": "all operations with any parameters, places, styles, contents and names", "why_tests_cant": "Tests have few parameters with plain names; collisions need the same name in two places or names that differ in separators or keywords, and the panics need unusual names or places.", "anchors": ["internal/deepmap/oapi-codegen/pkg/codegen/operations.go:30-135", "internal/deepmap/oapi-codegen/pkg/codegen/operations.go:797-857", "internal/deepmap/oapi-codegen/pkg/codegen/schema.go:91-93", "internal/deepmap/oapi-codegen/pkg/codegen/schema.go:633-638", "internal/deepmap/oapi-codegen/pkg/codegen/utils.go:127-134"]}
{"id": "C135", "title": "The old way of merging compositions makes the union of the parts", "statement": "With OldMergeSchemas a composition becomes a struct that embeds its references and has the fields of its other parts; properties of the same name are accepted only if they are identical, and then it is safe to merge them; additional properties must have the same type; all types the struct needs are declared.", "quantifier": "all compositions, parts, properties and ways of making schemas of parts", "why_tests_cant": "Tests merge a reference with an inline part; fields that two inline parts share and types that only additional properties need are not compiled.", "anchors": ["internal/deepmap/oapi-codegen/pkg/codegen/merge_schemas_v1.go:11-111", "internal/deepmap/oapi-codegen/pkg/codegen/merge_schemas.go:13-20", "internal/deepmap/oapi-codegen/pkg/codegen/schema.go:53-67", "internal/deepmap/oapi-codegen/pkg/codegen/schema.go:219-221"]}
{"id": "C136", "title": "A configuration asks for at most one kind of server", "statement": "Validate accepts a configuration exactly if it names a package and specifies only one server type; UpdateDefaults changes only a configuration that asks for nothing.", "quantifier": "all package names and all options of what to generate", "why_tests_cant": "Tests validate single configurations; the kind of server that is not counted is never combined with another.", "anchors": ["internal/deepmap/oapi-codegen/pkg/codegen/configuration.go:24-33", "internal/deepmap/oapi-codegen/pkg/codegen/configuration.go:93-125"]}
{"id": "C137", "title": "Lists of parameters that share arrays do not disturb each other", "statement": "Params and AllParams append to the slice of query parameters, and every operation of a path appends to the slice of global parameters. However often and in which order they are called, and whatever capacity Go gives to slices, every list they returned has the parameters of the operation in the documented order, and the lists of the operation stay as they are.", "quantifier": "all parameters, all capacities that append may choose, all sequences of calls and all operations of a path", "why_tests_cant": "Whether append writes in place depends on capacities chosen by the runtime; a test sees one growth policy and one order of calls.", "anchors": ["internal/deepmap/oapi-codegen/pkg/codegen/operations.go:212-241", "internal/deepmap/oapi-codegen/pkg/codegen/operations.go:475-483", "internal/deepmap/oapi-codegen/pkg/codegen/operations.go:525-552", "internal/deepmap/oapi-codegen/pkg/codegen/operations.go:817-822", "internal/deepmap/oapi-codegen/pkg/codegen/utils.go:481-498"]}
{"id": "C138", "title": "The summary of an operation becomes nothing but a comment", "statement": "SummaryAsComment returns the summary as a multi line comment: each line of the summary, without a last newline, is a line of the comment, unchanged behind two slashes and a blank, and there is no other line; there is a comment exactly if there is a summary.", "quantifier": "all summaries, with any newlines anywhere", "why_tests_cant": "Tests have summaries of one line; a line that is not marked would be code in the generated file.", "anchors": ["internal/deepmap/oapi-codegen/pkg/codegen/operations.go:257-268"]}
{"id": "C139", "title": "The constants of security schemes the operations use are declared", "statement": "GenerateConstants declares, in the order of the sanitized names, a constant for the scopes of each security scheme of the operations: each constant the handlers use is declared, each one declared is used by some operation, no two hold the same key, and schemes of different names do not share a constant, nor is one declared twice.", "quantifier": "all operations with all security definitions, names in any alphabet, and any classification of the characters beyond ASCII", "why_tests_cant": "Names are sanitized once by the generator and again by the templates, so that the uses meet the declarations only if sanitizing twice is sanitizing once, for every string.", "anchors": ["internal/deepmap/oapi-codegen/pkg/codegen/codegen.go:414-438", "internal/deepmap/oapi-codegen/pkg/codegen/templates/constants.tmpl:1-7", "internal/deepmap/oapi-codegen/pkg/codegen/templates/chi/chi-middleware.tmpl:43", "internal/deepmap/oapi-codegen/pkg/codegen/templates/gorilla/gorilla-middleware.tmpl:43", "internal/deepmap/oapi-codegen/pkg/codegen/templates/echo/echo-wrappers.tmpl:29", "internal/deepmap/oapi-codegen/pkg/codegen/templates/gin/gin-wrappers.tmpl:43"]}
