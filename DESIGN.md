# Formal model of yarql in Rocq/Coq 8.16.1

Source: `/repo` (mjarkk/yarql, read as text, never built or run). Model and proofs: `/verif/rocq/theories`,
built with `coq_makefile -f _CoqProject -o Makefile && make -j4` in `/verif/rocq`.

## Layers

| layer | files | what it is |
|---|---|---|
| Model of the parser | `ParserModel.v` | `bytecode/bytecode.go` function by function: a state of output bytes, position, errors; Go index panics are the result `Panic`, loops run on fuel and `NoFuel` is a result of its own. |
| Model of the query cache | `CacheModel.v` | `bytecode/cache/bytecode_cache.go` with the backing arrays of slices, because `SetEntry` keeps a slice without copying. |
| Model of the resolver | `Schema.v` (types, values), `ResModel.v`, `EnvModel.v` (Resolve), `HistModel.v` (Resolve after earlier requests) | `resolver.go` on the bytes of the bytecode, with the stack of 256 reflect values and its 8 bit index, panics of `reflect`, and the user code as functions over an arbitrary world type `W`. |
| Model of the rest | `JsonModel.v` (helpers), `NameModel.v`, `RegModel.v` (enums, directives, context values, type notation), `LinkModel.v` (Implements, TypeRename), `TestModel.v` (encoder of the parser tests), `ReqModel.v` (HandleRequest), `MemModel.v` (reused slices) , `GoTypes.v` and `ParseModel.v` (parse.go: how a schema is built from Go types), `IntroModel.v` (introspection, copies), `CopyModel.v` (copy_schema.go, with addresses), `EqModel.v` (equality and emptiness in assert/assert.go), `ErrModel.v` (traces, errors, zero and JSON in assert/assert.go), `MsgModel.v` (reports of Equal), `TraceModel.v` (tracing, on documents), `TesterModel.v` (tester), `DiffModel.v` (assert/difflib), `AssertModel.v` (failure reports, order and difference assertions of assert/) | see the comments; every definition cites the lines it models. |
| Specifications | `Ast.v` (documents and their encoding), `Grammar.v` (which text denotes which document), `Printer.v`, `GapSpec.v` (texts with the same tokens), `TextPos.v` (lines and columns), `Json.v` (JSON texts and what they denote), `Spec.v` (execution of a document, error-free), the first part of each `Prop*.v` | independent of the functions of the model; `Spec.v` knows no bytecode, buffers, positions or fuel. |
| Proof stages | `RefParser.v` (a recursive-descent parser to documents), `Sim*.v`, `RefGrammar.v`, `GapProof.v`, `GapSim.v`, `Parser{Safe,Mono,Pos,Facts}.v`; `Interp.v` (reference interpreter on documents), `ResFrame.v`, `ResSim.v`, `RunSim.v`, `OpSim.v`, `DocRun.v`, `Spec{Lit,Json,Val,Args,Run,Doc}.v`, `FuelMono.v`, `Term.v`, `Rewrite.v`, `RewriteErr.v`, `PathLog.v` (calls of user code and the paths they see), ... | not part of any statement (except `in_scope`, see below). |
| Properties | `Prop*.v` | theorems `Cnn_...`, each with `Print Assumptions` and an `Example Cnn_..._case` which shows a concrete non-trivial case of the hypotheses. |

The parser chain: `ParserModel` (bytes) = `RefParser` (documents, exact positions and errors) <=> `Grammar` (relation).
The resolver chain: `ResModel` (bytes) = `Interp` (documents, same errors, same calls, same output) <=> `Spec` (relation, error-free runs).

A property that is false of the code is answered by `..._refuted`, with a concrete witness checked by computation, and by
theorems on what does hold instead. Its status in MANIFEST.json is then `proved` with a note that begins with `REFUTED`.

## Trusted base

* The Coq 8.16.1 kernel with its `vm_compute` machine. No axiom, no `Admitted`, no kernel check switched off.
* `Print Assumptions` says *Closed under the global context* for every theorem of the `Prop*.v` files; it is printed after each of them in the build.
  (A scan of the loaded libraries finds the seven opaque constants `Coq.ssr.ssrunder.Under_rel.*` of the standard library, which are pulled in by `Zify`; no theorem depends on them.)
* The transcription of the Go code to Gallina: each definition cites file and lines. Simplifications are noted there.
* The reading of Go library functions: `strconv.ParseInt/ParseUint/AppendInt`, `utf8.DecodeRune`, `utf16.Decode` of one unit, `hex.Decode`, `fnv.New32`, `time.Format/Parse` for the one layout used, `strconv.ParseFloat/FormatFloat` (decimal texts; correct rounding, shortest digits), float64(int64) and float32(float64) (correct rounding), `strings.TrimSpace/Split/ToLower` as far as used, and the parts of `reflect` used (Field, Set*, Call, IsNil, Kind; read only values).

### Outside code that is a parameter

Nothing is assumed about these except their type; the theorems hold for all of them unless a hypothesis says otherwise.

* User code: `x_call` (a resolver is any function of the world, receiver, arguments and path to a new world and results, or a panic), `x_dir` (directives), `x_ctxerr` (context.Err), `x_formfile` (GetFormFile).
* fastjson: `x_parse` (any function from text to JSON tree or message), `x_json_float`, `x_json_int_err`; in `ReqModel.v` also printing.
* Floating point: `x_parse_float`, `x_of_int`, `x_to32`, `x_float_json` (strconv and the conversions). A float is its bits. C14 and C38 assume that `x_float_json` writes JSON numbers; C51 and C52 take the functions of FloatModel.v (helpers/encodeFloat.go, and strconv and the conversions as documented) for them (`go_floats`).
* The clock of traces (`now`: reading number -> time), `encoding/json` on strings (`str`) and the format of times (`day`).
* `x_gostring` (text of a value inside an error message).
* Growth of slices (`grow`, `spare`): any function that gives at least the needed capacity. Order of map iteration in the cache (`dels`): any choice.

### Not modelled

* Of tracing: what happens when copies, which share a tracer (C64_tracer), trace at the same time, a failure of `json.Marshal` and its escaping of `<`, `>`, `&` in paths (paths consist of names and indexes).
* The garbage collector, goroutines and data races as such (C41 states which locations are written); time and timeouts.
* multipart parsing, HTTP itself; fastjson's own buffers (strings that come from JSON variables point into them).
* fastjson's reading of numbers (`x_json_float`).
* `tester.go`: `json.Marshal` of the variables (`vars` is any text that fastjson reads as the object with the name) and `json.Unmarshal` other than on the responses that occur.
* Values of Go kinds the schema refuses (maps, channels, complex numbers).

## Hypotheses that occur in the statements

* `g_doc d q`: the text `q` denotes the document `d` (Grammar.v). `runs o d op`: with the options `o` the operation `op` of `d` is the one to execute (Printer-free definition in DocRun.v: the last one with the target name, or the last one).
* `regular S q d` (Regular.v): `g_doc d q`; no U+0000 in string literals (`nul_free`, else C46); bytecode below 4 GiB; the fields of the schema are stored under the hash of their names (`keyed`, which parse.go guarantees); no name in the document collides with the hash of another field (`unambiguous`, else C21); no fragment name is a proper prefix of another that is spread (`spreads_exact`, else C17); list literals only as last argument of a field without sub-selection (`lists_at_end`, else C27). `regularb` is a test for it.
* `in_scope X S o d op fuel w` / `limits`: the run of the reference interpreter does not reach `BOut`, i.e. the interpreter does not leave the structure of the document: fewer than 255 values inside each other (else C22), no fragment read by a prefix (C17), no list literal inside lists, objects or directive arguments and no null in a list of pointers (C27).
* `standard S`: `skip` and `include` are the built-in directives. `objects_implement S`: the implementations of an interface are object types.
* `probe X S f ...` (ArgRun.v): the query type has a resolver `f` which records its arguments. `asks o decls f args q`: the text `q` asks for `f(args)` only. `received`/`refused`: the resolver was called with exactly these arguments / was not called and there is an error. `slot`: where an argument goes.
* `ranked`, `sized`, `registered`, `all_named` (ParseTerm.v): every cycle of Go declarations goes through a declared struct or interface; no struct contains itself without a pointer or list (the Go compiler refuses it); the types registered as implementations are declared structs (RegisterInterface checks it); declared types have names. `named_apart`, `inputs_apart` (SchemaSpec.v): no two types of one package have the same GraphQL name, and the other collisions of C44 are absent; SchemaCheck.v decides them. `ParseModel` has parse.go's schema as tables; `view` makes the `schema` of the resolver from it.
* `unknown`, `deep` (PropUnknown.v, PropDepth.v): the request reaches, on the actual data, a selection that is no field / an object n levels down.

## Properties

| id | title | what is modelled, how it is proved | status | theorems |
|---|---|---|---|---|
| C01 | Query parsing always returns | Byte-level parser model with explicit `Panic` (out-of-range index) and `NoFuel` (loop did not end) outcomes; theorem: neither ever occurs for fuel linear in the query length. | proved: Parser model returns (no panic, no fuel exhaustion) for every byte string and target. | `C01_parser_returns` |
| C02 | An accepted query is executed as the document it denotes | Relational grammar (Grammar.v: text -> document, no positions, no bytecode) + encoder (Ast.v); soundness of the parser model by induction on fuel. | proved: Accepted text is in the grammar and the bytecode, fragment table and target index are those of its document. | `C02_accepted_query_denotes_its_bytecode`, `C02_document_is_unique` |
| C03 | Every text of the supported grammar is accepted | Converse of C02 by induction on the grammar derivation. | proved: Exactly the texts of Grammar.v are accepted. | `C03_grammar_is_accepted`, `C03_rest_is_rejected` |
| C04 | Print then parse is the identity | Canonical printer; printed text is in the grammar; with C03. | proved: All legal documents, any gap text. Legal excludes fields with arguments whose last directive has no arguments: these cannot be written (see C09). | `C04_print_then_parse` |
| C05 | A rejected query is never executed | Parser model (every critical result has added an error) composed with the model of Resolve (EnvModel.v). | proved: All byte strings outside the grammar, all schemas, all user code: the world is unchanged, data is {}, at least one error. | `C05_rejected_query_is_not_executed`, `C05_parser_error_means_no_execution` |
| C06 | Error locations point at the offending character | Location loop of `err` against an independent line/column definition on the prefix. | proved: Line and column against an independent description of line ends. | `C06_error_locations`, `C06_last_error_is_where_parsing_stopped`, `C06_place_is_unique` |
| C07 | Ignored tokens do not change the meaning | GapSpec.v says when two texts have the same tokens (own definition of tokens, no parser); GapSim.v: texts with the same tokens derive the same documents, by induction over the grammar; with C02/C03 the same bytecode. The gaps the parser refuses ($, @, ]!) are refuted by witness. | proved: For all texts, accepted or not, with the same tokens and any ignored text between them, and for insertion of ignored text at any token boundary. Not claimed (and refuted by witness): gaps behind $ and @ and between ] and !, which this parser refuses although GraphQL allows them. | `C07_gaps_do_not_matter`, `C07_inserting_ignored_text`, `C07_gap_text_is_irrelevant`, `C07_glued_tokens_refuted` |
| C08 | Operation selection | TargetIdx of the parser model against a fold over the document; resolver entry point. | proved: The parser hands the position of the last selected operation to the interpreter (all documents). The statement about the answer (only that operation and the fragments matter) is for documents without zero bytes in strings, bytecode below 4 GiB and runs inside the scope of Interp.v (in_scope). | `C08_parser_selects_the_operation`, `C08_no_such_operation`, `C08_last_selected_operation_is_executed` |
| C09 | Fields may carry arguments followed by directives | Expected to be false: refutation witness by computation on the model; what does hold (directives before arguments) follows from C03. | proved: REFUTED: the property is false of the code; a field with arguments followed by directives is a syntax error. | `C09_args_then_directives_refuted`, `C09_arguments_need_a_closed_directive` |
| C10 | String literals reach the resolver unchanged | String literal decoding of the parser + getValue of the resolver; false for \u0000 (refuted), proved for literals without it. | proved: REFUTED: an escaped surrogate pair arrives as two replacement characters, an escaped U+0000 ends the string, and block strings lose all indentation instead of the common indentation. Proved for every quoted string without these two escapes and for block strings without indentation, quotes and backslashes. | `C10_partial`, `C10_block_partial`, `C10_pair_refuted`, `C10_nul_refuted`, `C10_indent_refuted` |
| C11 | Cached parsing is transparent | Cache model with a heap of slice backing arrays (aliasing); refuted for fragment tables, proved for bytecode and target, and for documents without fragments. | proved: REFUTED: the fragment table of a cached query is overwritten by the next parsed query, because SetEntry keeps the slice without copying. Bytecode, selected operation, errors and number of fragments are transparent for all histories, and everything is for queries without fragments and on cache misses. | `C11_code_target_errors_are_transparent`, `C11_transparent_without_fragments`, `C11_transparent_on_miss`, `C11_fragment_table_refuted` |
| C12 | The query cache is bounded | Invariant over all histories and all eviction choices of the cache model. | proved:  | `C12_cache_is_bounded` |
| C13 | Only error free parses are cached | Same invariant. | proved:  | `C13_cached_entries_are_error_free`, `C13_rejected_each_time` |
| C14 | The response is always valid JSON | JSON grammar as inductive relation; resolver output; refuted in general (argument errors, __typename with selection), proved otherwise. JsonUnique.v: a text is the text of at most one JSON value, so the response can be read in one way only. | proved: REFUTED as stated: a failing method argument or a sub-selection (or arguments) on __typename leaves a key without value in the text. True variant proved for all queries, schemas and resolvers: without errors, or without arguments and without such sub-selections, the response is one JSON object; and a text denotes at most one JSON value. | `C14_response_is_json`, `C14_one_value`, `C14_argument_error_refuted`, `C14_typename_selection_refuted` |
| C15 | Reported errors equal returned errors | Envelope construction of BytecodeResolve. | proved: All requests, all schemas, all user code; requests that panic or do not return have no response. | `C15_errors_of_the_response_are_the_returned_errors` |
| C16 | Execution follows the document | Byte-level interpreter model (ResModel.v) = reference interpreter on documents (Interp.v) <=> readable big-step relation (Spec.v), for arbitrary stateful user code. | proved: For every regular request the error-free answer is exactly the one the readable execution relation (Spec.v) gives, with the same calls, and that answer is unique. REFUTED after an error: a binding error in one field drops the later siblings (C16_after_an_error_refuted). | `C16_document_is_executed`, `C16_only_the_document_is_executed`, `C16_response_is_determined`, `C16_after_an_error_refuted` |
| C17 | A fragment spread uses the fragment of that exact name | Refuted (prefix comparison); proved for documents where no fragment name is a proper prefix of another. | proved: REFUTED: a spread takes the first fragment whose name starts with the name of the spread (C17_prefix_refuted). Corrected: where no fragment name is the beginning of another, replacing a spread by the body of the fragment with exactly that name gives the same answer: error-free answers (C17_spread...), and response, errors and calls in general (C17_same_answer_with_errors, fragments without cycles). | `C17_spread_is_the_fragment_of_that_name`, `C17_same_answer_with_errors`, `C17_prefix_refuted` |
| C18 | @skip and @include | On the evaluation semantics + refinement. | proved: Removing the selections that are left out and the directives that leave nothing out, at all places of operation and fragments, with literal or variable conditions, gives the same answer: error-free answers (C18_skip_and_include), and response, errors and calls in general (C18_same_answer_with_errors). | `C18_skip_and_include`, `C18_same_answer_with_errors` |
| C19 | Depth limit | Refuted through interfaces; proved without. | proved: REFUTED: through interfaces the depth grows by two per level and only equality with MaxDepth is tested, so a request can pass the limit. Without interfaces: bound on the nesting of every answer (also with errors), error whenever an object at or below the limit is asked for, and null plus one error at the exact place. | `C19_bound_partial`, `C19_reported`, `C19_null`, `C19_interface_refuted` |
| C20 | Execution terminates | Refuted for cyclic fragments (out of fuel for every fuel); proved for acyclic ones. | proved: REFUTED as stated: a document whose fragments spread each other in a cycle is accepted by the parser and its execution never returns (C20_cycle_refuted holds for every number of steps). Corrected and proved: every request whose fragments have no cycle returns (C20_requests_return), under the interpreter limits named in the statement. | `C20_requests_return`, `C20_cycle_refuted` |
| C21 | Unknown fields are reported, never served | Refuted with an FNV-1 collision computed in the model; proved for names whose hash differs from all fields. | proved: REFUTED: a name with the FNV-1 hash of a field is served that field's value, without an error (witness: token / aokhely). For names without such a collision: exact answer (null, one error naming field and type, with the path) when asked for alone, and for any regular request in which an unknown field is selected on an object of the data the answer has an error. | `C21_unknown`, `C21_reported`, `C21_collision_refuted` |
| C22 | Sub-selections do not disturb their siblings | Value stack with 8 bit index is modelled; refuted when it wraps, proved below. | proved: REFUTED for more than 255 values inside each other (uint8 index wraps). Corrected: within the limits the answer to ss1 ss2 is the answer to ss1 followed by the answer to ss2. | `C22_siblings_do_not_disturb`, `C22_deep_refuted` |
| C23 | Error paths | Path handling in the refinement; for resolvers and directives a log of the paths they see, kept by arbitrary user code. | proved: Every error path leads to a value of the response or to a field left out by its directives; errors of one field begin with its path. Every call of a resolver sees the path of its own field, which leads to a value of the response; directives see the path of their field. GetPath is proved to give this path as a JSON list. Any user code can be observed so (C23_recording). | `C23_error_paths`, `C23_errors_of_a_field`, `C23_resolver_paths`, `C23_resolver_of_a_field`, `C23_get_path`, `C23_recording` |
| C24 | Integer literals are exact or rejected | strconv.ParseInt/ParseUint are implemented in the model; exactness proved for all digit strings and widths; C24_ranges writes the ranges of the Go types out. | proved: REFUTED only for the literal -0 on an unsigned argument, which is refused although it denotes 0. Every other integer literal is proved exact or refused, for every width, directly or behind pointers. | `C24_signed`, `C24_unsigned`, `C24_unsigned_minus`, `C24_minus_zero_refuted`, `C24_ranges` |
| C25 | Integer variables are exact or rejected | Signed proved, unsigned refuted. | proved: REFUTED: a JSON number for an unsigned 8/16/32 bit argument is silently truncated (256 becomes 0 for uint8) and numbers from 2^63 are refused for uint64. Signed arguments are proved exact or refused; unsigned arguments are proved to receive exactly the low bits. | `C25_signed`, `C25_unsigned_low_bits`, `C25_unsigned_partial`, `C25_truncated_refuted`, `C25_large_refuted` |
| C26 | IDs are exact or rejected | Refuted for narrow types; proved for int64/uint64. | proved: REFUTED: an ID for a narrow integer is truncated (300 becomes 44 for int8) and IDs from 2^63 are refused for uint64. For 64 bit signed integers the claim is proved; non-numbers are proved refused; narrower widths are proved to receive the low bits. | `C26_signed64`, `C26_not_a_number`, `C26_low_bits`, `C26_truncated_refuted`, `C26_large_refuted` |
| C27 | Argument lists and objects are bound structurally | Refuted for list literals; proved for list-free arguments. | proved: REFUTED: arguments after a list literal are dropped, lists of lists are cut, a pointer to an object whose last member is null stays nil, null in a list of pointers is an error. Without these (calm literals, lists only as last argument) every written argument is proved to be bound structurally, for any nesting of objects and any number of arguments. | `C27_partial`, `C27_after_list_refuted`, `C27_nested_list_refuted`, `C27_last_null_refuted`, `C27_null_element_refuted` |
| C28 | Variables | Model of bindOperatorArgumentTo on the encoded operation. | proved: REFUTED for the type clause only: a boolean argument accepts a variable declared with any scalar type. Value, default, missing value and undeclared variable are proved in full; another type is proved refused except for the listed lenient cases (C28_other_type_partial, C28_lenient). | `C28_value`, `C28_default`, `C28_no_value`, `C28_undeclared`, `C28_other_type_partial`, `C28_lenient`, `C28_no_object`, `C28_other_type_refuted` |
| C29 | Strings given to resolvers are stable | Memory model of the shared byte buffer; refuted. | proved: REFUTED: string arguments are references into the bytecode buffer; a later request whose bytecode covers the place and fits into the array puts its own bytes there (witness: a resolver that kept "secret" then reads "public"). Proved: what exactly is read after a further request, and that strings stay while later bytecodes end before them, or once the buffer has moved to another array. Strings from JSON variables refer to the buffer of the JSON library, which is not modelled. | `C29_partial`, `C29_overwritten`, `C29_refuted` |
| C30 | Requests are independent | HistModel.v: Resolve on left-over reflect values and a parser context with any history; composed with the cache results. | proved: REFUTED for cached queries with fragments (the shared fragment table, C11): the same request is answered differently after another one. Proved for every left-over reflect value and every history of the parser context when the query has no fragments, is too short for the cache, or is not in the cache. | `C30_requests_are_independent`, `C30_with_fragments_and_cache_refuted` |
| C31 | Strings are encoded as JSON faithfully | Independent JSON string decoder + UTF-8 decoder. | proved:  | `C31_string_is_encoded_faithfully`, `C31_no_control_characters`, `C31_no_confusion` |
| C32 | Integers are encoded as JSON faithfully | Decimal printer/reader. | proved: For data fields of any integer width, booleans, strings, IDs, and lists, arrays and pointers of these (fewer than 254 nested lists). | `C32_encoding`, `C32_signed`, `C32_unsigned`, `C32_bool`, `C32_id` |
| C33 | Enum values round trip | Enum table model. | proved: For enums as RegisterEnum builds them (distinct names, values of one kind); names given as enum literal, as string or as variable. | `C33_output`, `C33_input`, `C33_round_trip` |
| C34 | Times denote the same instant | Civil time fields + offset; refuted for non UTC zones, proved for UTC. | proved: REFUTED: the claim is false for every time whose location has a non-zero offset from UTC and for years above 9999; proved for all times in UTC with years 0..9999. Go's time.Format and time.Parse are modelled for the one layout used. The texts read are characterised exactly. | `C34_utc_times_round_trip`, `C34_shift_by_offset`, `C34_other_offsets_refuted`, `C34_year_10000_refuted`, `C34_text`, `C34_read_exactly` |
| C35 | Field naming | Naming functions against an independent description. | proved: REFUTED: names as X1 keep their capital letter, non-ASCII first letters give names no query can contain, and a method named Resolve makes schema parsing panic. The corrected naming rule, tags, '-' and writability of ASCII names are proved. | `C35_default_name`, `C35_default_name_refuted`, `C35_tag_name`, `C35_dash_hides`, `C35_names_are_writable`, `C35_names_are_writable_refuted`, `C35_method_name`, `C35_method_resolve_refuted`, `C35_methods_exactly`, `C35_method_letters_refuted` |
| C36 | Internal struct fields are not exposed | Model of struct field scan; refuted. | proved: REFUTED: unexported fields are exposed. C36_exposed_exactly says exactly which fields are. | `C36_internal_fields_refuted`, `C36_exposed_exactly` |
| C37 | Context values | Ctx model; SetContext refuted without a context. | proved: REFUTED in the last clause: SetContext panics for a request without context and SetValue for a pointer to a nil map; the exact condition is C37_panics. The rest holds for all sequences that do not panic. | `C37_set_value`, `C37_set_context`, `C37_panics`, `C37_sequences`, `C37_no_panic_refuted` |
| C38 | Batch requests | HandleRequest model with fastjson as an abstract parser. | proved: REFUTED in the last clause: items share the map of context values, so a value set by one is seen by the next. One response per item, in order, each equal to handling the item alone in the state left by the ones before, holds for all batches; independence holds for stateless resolvers. Resolve and the JSON parser are parameters. | `C38_batch_is_one_by_one`, `C38_nested_batch_is_an_error`, `C38_stateless_items_are_independent`, `C38_error_response_is_json`, `C38_batch_response_is_json`, `C38_items_share_values_refuted` |
| C39 | Request dispatch | Same model. | proved: REFUTED for content types with a parameter (application/json; charset=utf-8), whose body is ignored. For the literal content types the whole dispatch is proved; text/plain bodies are read as JSON too. Resolve and the JSON parser are parameters. | `C39_body_is_executed`, `C39_malformed_body_is_an_error`, `C39_url_otherwise`, `C39_content_type_parameter_refuted` |
| C40 | A copied schema behaves like the original | IntroModel.v: inject_schema.go and copy_schema.go over the tables of ParseModel.v; SampleIntro.v has grahql_types.go as Go types. Same.v: two runs of Resolve whose schemas differ only in `hidden` and whose outside functions are related do the same (induction over the whole resolver). PropIntro.v. | proved: REFUTED: __type on a copy shows hidden fields and has lost enum descriptions. Proved: for any outside functions a copy resolves every request exactly as the original; with introspection, every request that does not call __type. | `C40_copies_answer_alike`, `C40_copies_answer_alike_introspection`, `C40_copies_answer_alike_refuted`, `C40_enums_are_copied_refuted` |
| C41 | Copies do not share mutable state | The caches of all schemas are part of the world; frame and independence theorems from Same.v. Data races as such are not modelled: the theorem says which caches a request reads and writes. | proved: REFUTED: requests on copies that look at __schema read and write the cache of the original. Proved: all other requests touch only their own cache and do not depend on others. | `C41_copies_are_apart`, `C41_copies_are_apart_refuted` |
| C42 | Introspection is stable | Invariant of the caches (IntroProof.v: `cache_ok`) kept by every function of introspection but one; Same.v lifts it to whole requests and to all histories of requests. | proved: REFUTED: mutationType.fields is cached under the name of the query; structs and interfaces with one name share a cache entry. Proved: stable over all histories that do not call mutationType.fields, if no interface has the name of a struct. | `C42_introspection_is_stable`, `C42_introspection_is_stable_refuted`, `C42_order_of_parts_refuted`, `C42_structs_and_interfaces_refuted` |
| C43 | Registration is atomic | Registration model; refuted for partial failure, uniqueness proved. | proved: REFUTED: a registration refused at a later location stays in effect at the earlier ones, and an enum with a built-in name is accepted (but never used). Uniqueness and availability hold for all sequences. | `C43_success_registers_everywhere`, `C43_names_are_unique`, `C43_new_schema`, `C43_builtin_directives_stay`, `C43_single_location_is_atomic`, `C43_atomic_refuted`, `C43_builtin_enums_stay`, `C43_enum_name_taken_refuted`, `C43_builtin_places` |
| C44 | Schema parsing terminates and is unambiguous | GoTypes.v: Go types as reflect shows them (declarations with packages, methods, tags); ParseModel.v: `check`, `checkFunctionInput` and the rest of parse.go as a state monad with fuel. Termination by a lexicographic measure over the unrecorded names and the types (ParseTerm.v); names by the invariant of ParseSound.v. | proved: REFUTED in four ways: type L []L makes Parse recurse without end; argument structs of different packages with equal names are taken for one type; with a registered implementation a struct's record is replaced by that of another package; types without names are recorded again at each place. Proved: Parse returns for every program whose cycles of declarations go through a struct or interface with a name, and in a schema that was built (names of one package apart) two reachable structs never have the same name. | `C44_parsing_returns`, `C44_parsing_returns_refuted`, `C44_struct_names_are_unique`, `C44_struct_names_are_unique_refuted`, `C44_argument_names_are_unique_refuted`, `C44_recorded_once_refuted` |
| C45 | Type notation in introspection and tracing | Suffix construction; refuted, proved for single layer types. | proved: REFUTED: a list of non-null Int is printed [Int]!; the notation is right exactly for types whose marks read the same in both directions. | `C45_right_exactly_for_symmetric_marks`, `C45_right_without_lists`, `C45_type_names_refuted` |
| C46 | String literals are data | Full byte-level run of the resolver model on bytecode produced by the parser model; witnesses by computation. | proved: REFUTED: an escaped U+0000 in a string literal ends the string in the bytecode and the following characters are executed as instructions; a legal query can read fields it does not ask for or make the request panic. For documents without U+0000 in values the answer is what the document asks for (C16 and C20 theorems). | `C46_panic_refuted`, `C46_injected_refuted` |
| C47 | Responses given to callers stay | Memory model of the reused slices (MemModel.v). | proved: REFUTED: the response of a single request is s.Result itself and is overwritten by the next request; batch responses are copies and stay. | `C47_copied`, `C47_reused`, `C47_refuted` |
| C48 | The schema has what the Go types have | SchemaSpec.v states, without the parser, when a recorded type, field, function, argument says what a Go type says (`type_reads`, `member_reads`, `args_read`, `schema_reads`) and which types belong to a schema (`reach`, `in_reach`). ParseSound.v/InputSound.v/ParseWhole.v: invariant with a ghost map from recorded names to Go types. PropSchema.v: what Resolve relies on (`closed`, `keyed`) follows. PropKinds.v: the tests for special types are exact (method sets and declared names). | proved: for all programs, registrations and roots with names apart (named_apart, inputs_apart: no two types of one package with the same GraphQL name, no registered implementation with the name of a type of another package; C44 has what happens otherwise); C48_special_types: which types count as errors, implementations, times, uploads, contexts and ID marks; C48_zero_values: the zero values of Go types | `C48_schema_describes_types`, `C48_parsed_schemas_are_closed`, `C48_special_types`, `C48_zero_values` |
| C49 | Introspection tells what the Go program is | IntroSpec.v states what introspection should say (`go_ref`, `in_ref`, `shows_fields`, `shows_inputs`, `described`) from the Go types alone; IntroFacts.v derives it for every parsed schema from `schema_reads` (C48) and the cache invariant (C42). PropDescribe.v; five refuted parts with witnesses. PropMembers.v says by the names of the declared fields what is in the values (C49_enum_value and others). | proved: Proved for the names, kinds, members, types, arguments, interfaces, possible types, enum values and the list of types of every parsed schema after any history, given distinct names and distinct field hashes. REFUTED: enum arguments are reported as scalars, directive arguments are missing, inputFields is empty when reached through an argument, the first argument of interface methods is missing, and a struct can share its name with a scalar. | `C49_introspection_describes_the_program`, `C49_enum_arguments_refuted`, `C49_input_fields_refuted`, `C49_directive_arguments_refuted`, `C49_interface_arguments_refuted`, `C49_names_refuted`, `C49_enum_value`, `C49_field`, `C49_argument`, `C49_type`, `C49_directive` |
| C50 | No request panics | TypeSpec.v: what it means that values, results and arguments have their Go types (`typing`, `arg_value`, `behaves`) and the rules for authors (`careful`). TypeArgs.v: every argument given to a function is a value of its type and binding never panics; TypeSafe.v: type soundness of the interpreter over the schema that C48 describes, by induction on fuel. TypeCheck.v: proved tests for the hypotheses. Each hypothesis has a counterexample program without it (`_refuted`). | proved: Proved under the stated rules; each _refuted theorem drops one rule and shows a panicking request. Uses readable (C22 and cut argument lists excluded). | `C50_no_request_panics`, `C50_unexported_time_refuted`, `C50_method_in_unexported_field_refuted`, `C50_unexported_argument_refuted`, `C50_unexported_input_field_refuted`, `C50_enum_of_other_package_refuted`, `C50_file_without_function_refuted`, `C50_local_types_refuted` |
| C51 | Floats are written as the shortest text that can be read back | FloatSpec.v: IEEE formats, the values of bit patterns, nearest number with ties to even, decimal texts, all over the rationals of the standard library. FloatModel.v: FloatToJSON and the shortest digits of strconv, on bit patterns and natural numbers. FloatProof.v: rounding gives the nearest number, and only one; FloatText.v: the text is a JSON number that denotes the digits found, which round to the number. FloatShort.v: the digits are the fewest and the nearest, and the form is that of ECMAScript's Number::toString (es_number in FloatSpec.v, except the sign of -0). PropOut.v: the response contains what FloatToJSON gives, in lists and behind pointers too. | proved: Proved for finite numbers: the text reads back, has the fewest digits, is the nearest of those, and has the form of ECMAScript. REFUTED for infinity and NaN, which are written as 0.0 and so read as another number. | `C51_encoding`, `C51_float64`, `C51_float32`, `C51_not_finite`, `C51_distinct`, `C51_response`, `C51_infinity_refuted` |
| C52 | Float arguments receive the nearest number | FloatRead.v: ParseFloat finds the nearest number of every decimal text of up to 9000 characters and refuses the rest; float64(int64) and float32(float64) are correctly rounded. FloatLit.v: a JSON number as text of a query is parsed to a literal with the same value, decimal texts denote one number, texts of floats are short. PropFloat.v puts them together on whole requests; the counterexamples are computed. (The float32 that is not received back was found by a search over all short decimals near midpoints of float32 numbers.) | proved: REFUTED in four points: integer literals outside int64 are refused; float32 arguments are rounded twice (witness 7.038531e-26); a literal too large for float32 becomes infinity; 10^20 and -0 do not come back. Proved otherwise: float64 arguments receive the nearest number, and every float64 comes back unless its text is an integer outside int64 or -0. Literals of more than 9000 characters are left out (strconv stops counting exponents at 10000). | `C52_float`, `C52_no_number`, `C52_integer`, `C52_text`, `C52_round_trip`, `C52_integer_refuted`, `C52_float32_refuted`, `C52_overflow32_refuted`, `C52_round_trip_refuted` |
| C53 | Traces record what was resolved and change nothing else | TraceModel.v: the interpreter of Interp.v with the tracer (readings of an arbitrary clock, prefRecordingStartTime, the list of entries) and the JSON text of a trace. TraceProof.v: erasing the tracer gives the interpreter, so C53_same_answer links it with Resolve on bytes; the entries are described by induction over the run from the response tree (TraceSpec.v). TraceTime.v: invariants of the clock readings. Parsed schemas have a name for each type (C53_parsed, from C48). Texts for which nothing is executed have a trace without entries and with the times of parsing (C53_not_executed). | proved: Same data, errors and effects with and without tracing; exactly the entries that the response calls for, each with its path, parent, name and type; all spans in order inside the request; the trace and the response are JSON. REFUTED parts: the entry of an object starts with the last field started inside it; validation starts before parsing ends; list types are misprinted. | `C53_same_answer`, `C53_parsed`, `C53_recorded`, `C53_every_field_once`, `C53_return_type`, `C53_times`, `C53_field`, `C53_trace_is_json`, `C53_response_is_json`, `C53_not_executed`, `C53_parents_span_children_refuted`, `C53_validation_follows_parsing_refuted`, `C53_list_type_refuted` |
| C54 | The tester tells what the Go program is | TesterModel.v: tester.go with its query, and reading the response (`got`) as a relation to the JSON value of the text (which is unique, JsonUnique.v). TesterSpec.v: what is known of a name (`known`). TesterSchema.v: what any parsed schema of a program with yarql's own types has for the query; TesterProof.v: the run of the query on the reference interpreter, for any fuel of at least 30; TesterGot.v: the answers of introspection (C49's facts) and the reading of the text. PropTester.v. | proved: Proved for the schema itself, after any requests in which mutationType.fields was not asked for, for programs whose type names are distinct (else C49_names_refuted), field names have distinct hashes (else C21) and are UTF-8, and depth limits other than 1 and 2. REFUTED for copies of a schema and after mutationType.fields, with witnesses. | `C54_get_type`, `C54_has_type`, `C54_type_kind`, `C54_has_fields`, `C54_only_has_fields`, `C54_copies_refuted`, `C54_after_mutation_fields_refuted` |
| C55 | The diff in a failed assertion is right | DiffModel.v: difflib.go function by function, with the index and slice panics and unbounded loops of Go as `None` (never reached, by the theorems), the table of lines, junk, popular lines and the two caches; `diff` of assert.go for strings. DiffSpec.v: common runs, `longest`, `forward`, `script`, `grouped`, and an executable reader of unified diffs (`patch`). DiffProof.v: the search; its row table is the longest run ending in each column, by induction over rows and columns; DiffBlocks.v: recursion, joining, ranges; DiffText.v: groups, printing and reading; DiffSame.v: equal lists at any size, also with popular lines. PropDiff.v. Not modelled: the formatting of values other than strings (fmt) before they are compared; the rest of the assert package is in C62, C63 and C65. | proved: REFUTED in part: from 200 lines on the run found need not be the longest and a frequent line can be removed and added in one place (C55_longest_refuted, C55_no_common_refuted; below 200 lines both hold: C55_longest, C55_no_common; at any size no run of infrequent lines is longer than the one found: C55_infrequent); GetOpCodes after GetGroupedOpCodes is wrong (C55_cache_refuted). Everything else is proved for all lists: runs, ranges, groups, the printed diff (C55_patch, C55_message) and emptiness (C55_empty). | `C55_longest`, `C55_infrequent`, `C55_longest_refuted`, `C55_run`, `C55_blocks`, `C55_opcodes`, `C55_no_common`, `C55_no_common_refuted`, `C55_groups`, `C55_patch`, `C55_empty`, `C55_message`, `C55_cache_refuted` |
| C56 | Responses have the types that the schema announces | AnswerSpec.v: conformity of a response tree to a GraphQL schema (`conforms`, `members_conform`), the GraphQL schema of a Go program (`go_gql`, by `go_ref`/`member_ref` of C49), nothing about the resolver. AnswerProof.v: induction on fuel over the interpreter with the invariants of C50 (values and results have their Go types) and a triple that keeps apart runs with and without errors. Which members there are is C16. The hypothesis `enum_values` is needed (C56_enum_values_refuted), so is that Int has all Go integers (C56_int_refuted); with errors null appears at non-null types (C56_failed_fields_refuted). PropIntroTold.v (C56_as_introspection_says): the same with the schema that introspection tells (`told_gql`, defined by the values that __type and its functions return, C49) in place of that of the Go program, for requests that may contain introspection. | proved: For programs whose enum values are registered ones and with Int for all Go integers; REFUTED without either, and GraphQL's rule for null at non-null types with errors is not followed. | `C56_answers_have_the_announced_types`, `C56_as_introspection_says`, `C56_enum_values_refuted`, `C56_int_refuted`, `C56_failed_fields_refuted` |
| C57 | Introspection does not panic | IntroTyped.v: a type for every closure of introspection (`sig`), an invariant on the caches of all copies (`all_kept`), and the proof that every call keeps it and returns values of the declared types (`intro_behaves`); the code of the program may do what it likes within its own types (`user_behaves`). PropIntroSafe.v: with that, C50 (whose `request_fine` also keeps the invariant) gives C57 by induction over the requests served (`served`). | proved: Under the rules for authors of C50. Uses readable (C22 and cut argument lists excluded); what runs out of fuel in the model is not a panic (see C20). | `C57_introspection_does_not_panic` |
| C58 | Introspection tells which directives can be used where | PropDirs.v: registration (RegModel) and introspection (IntroModel.`directives_ql`) are connected by `has_directives`; `lists` reads a value of __Schema without helpers of the model. By induction over the registrations the table of each place has exactly the directives registered for it, by induction over the entries of the table the value lists exactly those. `misused` says by rules that a selection reached by a request has a directive that is not there for it; C16 (what is executed without errors is the document) gives C58_reported. | proved: For registrations that succeeded and the three places there are. REFUTED after a registration that failed (C43), for numbers that are no place, and as to names being unique. | `C58_directives_told`, `C58_told_is_usable`, `C58_unknown`, `C58_reported`, `C58_failed_registration_refuted`, `C58_places_refuted`, `C58_names_refuted` |
| C59 | Registered implementations and names | LinkModel.v models Implements and TypeRename; PropLink.v: `legal_call` and `made` say by the declarations what a call is for; an invariant over the calls (`links_ok`, induction from the end) gives C59_links, C49 gives C59_told for the values that introspection returns; `trimmed` and `gql_name` describe names without helpers of the model, `trimmed` has one result (C59_trimmed_once). Without `calls_apart` it is false: the tables have Go names without packages (C59_interfaces_of_one_name_refuted, C59_structs_of_one_name_refuted, C59_rename_refuted). | proved: Proved for programs in which, among the registered types, interfaces of one name are one and structs of one name are one (calls_apart). REFUTED without it: the tables are keyed by Go names without packages. | `C59_call`, `C59_links`, `C59_listed`, `C59_registered`, `C59_told`, `C59_rename`, `C59_trimmed_once`, `C59_interfaces_of_one_name_refuted`, `C59_structs_of_one_name_refuted`, `C59_rename_refuted` |
| C60 | The bytecode says which document was read | CodeUnique.v: documents that the grammar gives are `plain` (names without zero bytes, field names not empty); every part of the encoding can be told apart from what follows it (structural induction over values and selections: sizes, zero bytes behind names, first bytes of the next part), so equal bytes give equal documents (C60_document). With C02 and C03 this is a statement about the results of parse_query (C60_texts, C60_places). The bound 4 GiB comes from the four length bytes. | proved: bytecode shorter than 4 GiB (lengths are kept in four bytes) | `C60_document`, `C60_texts`, `C60_places` |
| C61 | What a test of the parser tells | TestModel.v models the toBytes methods step by step, with reserved bytes that writeUint32At fills in afterwards; TestProof.v says what a description describes (`doc_of`) and proves by induction over descriptions that the bytes are the encoding of that document; with C60, C02 and C03 a test passes exactly for the texts that denote it (C61_passes). Two limits: C61_both_refuted, C61_undescribed_refuted. | proved: for descriptions without a field that has both arguments and a selection; REFUTED for those that have one (finding 34) | `C61_expected`, `C61_passes`, `C61_both_refuted`, `C61_undescribed_refuted` |
| C62 | Failure reports of the assertions | AssertModel.v models the line scanner with its buffer of 65536 bytes, indentMessageLines, labeledOutput, messageFromMsgAndArgs, Fail, truncatingFormat and the message of Equal. AssertSpec.v says what a report is (rows of two columns, lines of a text, lines before the first long one) and AssertProof.v that such a report exists and is unique for all contents, so C62_report determines every byte. C62_all_shown, C62_fail and C62_equal are the readable consequences; the limits are C62_long_refuted, C62_equal_refuted, C62_compare_message_refuted and C62_sign_says. | proved: lines up to 65535 bytes and type names up to 72 bytes; REFUTED beyond these and for the messages of the comparing assertions (finding 35) | `C62_report`, `C62_all_shown`, `C62_fail`, `C62_equal`, `C62_order_says`, `C62_sign_says`, `C62_compare_message`, `C62_long_refuted`, `C62_equal_refuted`, `C62_compare_message_refuted` |
| C63 | Order and difference assertions | The comparisons of floats are related to the rational numbers that the bit patterns stand for (FloatSpec.v) by the order of the magnitudes (FloatProof.v mag_mono), those of strings to the first difference; C63_order and C63_sign then follow for all kinds. Subtraction is modelled as IEEE 754 prescribes, so C63_delta relates InDelta to the exact difference. C63_slices is by induction over the slices. Limits: C63_delta_refuted, C63_delta_nan, C63_slices_refuted. | proved: orders as stated; InDelta is about the rounded difference; REFUTED for slices of different lengths and integers beyond 2^53 (finding 36) | `C63_order`, `C63_sign`, `C63_delta`, `C63_delta_numbers`, `C63_delta_infinite`, `C63_slices`, `C63_delta_nan`, `C63_delta_refuted`, `C63_slices_refuted` |
| C64 | What a copy of a schema shares with it | CopyModel.v models all copy functions over records in which every pointer, map and slice carries its address, with the next free address as state. CopySpec.v defines content (all addresses forgotten) and the two lists of cells without reference to the copy. One combinator lemma each for pointers, slices and maps (CopyProof.v good_cell, good_list, good_map) and inductions over nested inputs, objects and types give content, freshness and sharing together. Limit: the tracer (C64_tracer, C64_tracer_refuted), which is the only such cell (C64_only_tracer). | proved: content up to hidden marks and descriptions of enums (finding 22); REFUTED for the tracer, which is shared (finding 37) | `C64_content`, `C64_apart`, `C64_copies_apart`, `C64_shared`, `C64_again`, `C64_panics`, `C64_state`, `C64_tracer`, `C64_only_tracer`, `C64_tracer_refuted` |
| C65 | Equality, nil, emptiness, panics and relative errors in assertions | EqModel.v models Go values as reflect sees them (types by identity, addresses of pointers, slices and maps) and on them reflect.DeepEqual, ObjectsAreEqual, isNil, isEmpty and the assertions. EqSpec.v defines equal values (`same`) and empty values (`nothing_in`) as inductive relations without reference to the model's functions; the agreement is an induction over nested values (EqProof.v). InEpsilon: the division is IEEE division rounded to nearest; C65_epsilon says in rational numbers when it passes. Limits: values are finite trees (DeepEqual on cyclic values is not modelled); C65_epsilon_refuted, C65_panics_refuted, C65_reflexive_refuted. C65_transitive needs all values to be in one memory (EqSpec.v lives), because equal addresses count as equal. | proved: REFUTED for InEpsilon with an infinite expected number, for InEpsilonSlice, for Panics with panic(nil) and for NaN (finding 38) | `C65_equal`, `C65_not_equal`, `C65_reflexive`, `C65_symmetric`, `C65_transitive`, `C65_reflexive_refuted`, `C65_empty`, `C65_nil`, `C65_map_values`, `C65_panics`, `C65_panics_refuted`, `C65_epsilon`, `C65_epsilon_numbers`, `C65_epsilon_infinite`, `C65_epsilon_any`, `C65_epsilon_refuted`, `C65_epsilon_slice_refuted` |
| C66 | Traces of failures, errors, zero values and JSON in assertions | ErrModel.v models callerInfo over a list of frames, errors.Is and errors.As over chains of errors, Zero, and JSONEq over JSON trees (what encoding/json makes of them: maps in which the last value of a key counts). ErrSpec.v says what a path, a test, the rows of a trace, a chain and equal JSON are, as relations. Parameters: whether a text begins with a lower-case letter, fmt's %q, and json.Unmarshal as far as the tree. Limits: C66_trace_refuted, C66_json_refuted; errors that wrap several errors (Go 1.20) and the methods As are not modelled separately (`fits`). | proved: REFUTED: tests in directories named assert, mock or require have no trace; numbers in JSON are compared as float64 (finding 39) | `C66_trace`, `C66_test_is_last`, `C66_trace_refuted`, `C66_error_is`, `C66_chain`, `C66_error_as`, `C66_errors`, `C66_zero`, `C66_json`, `C66_json_refuted` |
| C67 | What a failed Equal reports | MsgModel.v models Equal with formatUnequalValues, truncatingFormat, typeAndKind and diff on the values of EqModel.v and with the differ of DiffModel.v; fmt (%T, %#v, %+v) and Elem of pointer types are parameters. C67_report covers all cases of Equal, C67_diff and C67_pointers say when there is a diff and use C55_message for what it says. Limits: C67_pointer_to_string_refuted, C67_one_type_refuted, C67_line_refuted. | proved: REFUTED: the diff of pointers to strings is empty, a value and a pointer get a diff, lines of the diff are not limited (finding 40) | `C67_report`, `C67_diff`, `C67_pointers`, `C67_strings`, `C67_pointer_to_string_refuted`, `C67_one_type_refuted`, `C67_line_refuted` |

## Findings

Proved by computation on the model (theorem in brackets), each from the lines of the code that are modelled:

1. `{a(b:1) @skip(if:true)}` is a syntax error: directives are only accepted before arguments [C09].
2. An escape `\u0000` in a string literal ends the string in the bytecode; what follows is executed as instructions, or makes the request panic [C46, C10].
3. Escaped surrogate pairs become two replacement characters; block strings lose all indentation [C10].
4. The fragment table of a cached query is overwritten by the next parse; the same cached query is then answered differently [C11, C30].
5. Invalid JSON `{"foo":}` when an argument fails to bind, and for `__typename` with a selection or arguments [C14].
6. After a critical error the remaining siblings in the enclosing selection sets are dropped [C16].
7. A spread takes the first fragment whose name merely begins with the name of the spread [C17].
8. The depth limit is passed through interfaces: they count twice and only equality is tested [C19].
9. Fragments that spread each other recurse until the stack overflows [C20].
10. Fields are found by FNV-1 hash only: `aokhely` reads the field `token` [C21].
11. The index of the value stack is 8 bits wide and wraps [C22].
12. `-0` is refused for unsigned arguments [C24]; JSON numbers for 8/16/32 bit unsigned arguments are truncated (the code tests for signed kinds), and 2^63.. is refused for uint64 [C25]; the same for IDs [C26].
13. Arguments after a list literal are dropped, lists of lists are cut, null in a list of pointers is an error, a pointer to an object whose last member is null stays nil [C27].
14. A boolean argument accepts variables of any declared type; enum, ID, file and time accept `String`; a slice accepts a type named `List` [C28].
15. Strings given to resolvers and the response given to the caller are references to buffers that the next request overwrites [C29, C47].
16. Times with a non-zero offset are written as if they were UTC [C34].
17. Unexported struct fields are part of the schema; a method named `Resolve` makes Parse panic; methods that continue with a letter outside ASCII are taken or ignored according to its first byte; non-ASCII and `X1`-like names [C35, C36].
18. SetContext panics without a context [C37]; batch items share context values [C38]; `application/json; charset=utf-8` is not recognised [C39].
19. A directive refused at one location stays registered at earlier ones; an enum with a built-in name is accepted [C43].
20. `[Int!]` is printed `[Int]!` [C45].
21. `type L []L` makes Parse recurse until the stack overflows; argument structs of different packages with equal names are one type; a struct registered as implementation can lose its record to a struct of another package with the same name; unnamed structs are recorded again at each place [C44].
22. A copy of a schema shows the hidden fields `__schema` and `__type` and has lost the descriptions of enums [C40]; `__schema` on a copy reads and writes the caches of the original, so that copies used concurrently race [C41].
23. After `mutationType{fields}` was asked for, `queryType{fields}` lists the fields of the method; a struct and an interface of one name show each other's fields [C42].
24. Introspection: directives have no arguments, arguments of enum types are said to be String or Int, `inputFields` is empty if reached through an argument, methods of interfaces lack their first argument, and a struct named like a scalar (`File`, `Time`, `ID`) makes two types of one name [C49].

25. Ignored text behind `$` and `@`, and between `]` and `!` of a list type, is a syntax error, though GraphQL allows it between any two tokens [C07].
26. Requests that make Resolve panic though all user code behaves: a time, or a struct with methods, in an unexported field; an unexported field of an argument struct that the query sets; a type of another package with the name of an enum and another kind; a file argument given in the variables when GetFormFile is nil; a function-local type with the name of a registered implementation [C50].
27. Infinity and NaN are written as 0.0 [C51]. A float32 argument is rounded twice: `7.038531e-26`, the text that the response gives for one float32, is received as its neighbour; a literal too large for float32 is not refused but becomes infinity (and is then written as 0.0); integer literals beyond int64 are refused for Float arguments though the same number with an exponent is accepted, so the float64 10^20 is written as a literal that is refused; `-0` becomes 0 [C52].
28. Times in traces: there is one variable for the start of the field that is being resolved, so the entry of an object or list starts with the last field started inside it, after most of its content was resolved. The start of validation is counted from the start of parsing and not of the request, so it is reported before the end of parsing. The type of a list is printed with its marks in the wrong order (as in C45) [C53].
29. `tester.OnlyHasFields` fails for the query of a copied schema, because `__schema` and `__type` are shown there (as in C40); after a request for `mutationType{fields}` the tester finds the fields of the mutation on the query (as in C42) [C54].
30. difflib: from 200 lines on `findLongestMatch` does not keep the promise of its comment; a line that is in both lists is not found if it is frequent, and is then shown as removed and added in one place. `GetGroupedOpCodes` cuts the ranges in the very slice that `GetOpCodes` keeps, so that `GetOpCodes` (and a second `GetGroupedOpCodes` with more context) is wrong afterwards [C55].
31. A value of an enum type that is not registered, as that of every field nobody has set, is written as null without an error, though the type is announced as non-null; `Int` carries integers of 64 bits; with an error null is written at fields of non-null types instead of at the object around them; if a resolver returns an error, its result is written all the same [C56].
32. Introspection of directives: after a registration that failed (finding 19) the directive is told for a place where it cannot be used or not told for one where it can, depending on the order in which Go walks over a map; a place that is none of the three is accepted and told as FIELD; one name may be told twice [C58].
33. Implements and TypeRename keep their tables by the Go name of a type, without its package. A second interface of the same name from another package is silently not registered (C59_interfaces_of_one_name_refuted); with two structs of one name in different packages, introspection says of one that it implements an interface whose methods it does not have, and the check of parse.go 387 for two structs of one name does not notice them (C59_structs_of_one_name_refuted); renaming a struct of one package renames all structs, interfaces and argument structs of that name (C59_rename_refuted).
34. The encoder of the parser tests writes the selection of a field before its arguments (testing_framework.go 271-279), the parser the arguments first (bytecode.go 592-623). A correct description of a field that has both, such as `{a(b:null){c}}`, makes the test fail (C61_both_refuted); no test of the project has such a field, so this most common form of a field is not covered by any parser test. An operation with an empty variable list, `query q(){a}`, is accepted by the parser but cannot be described at all (C61_undescribed_refuted).
35. Failure reports: a line of 65536 bytes or more ends the text in the report, it and everything after it is lost without a word (assert.go 173-186 ignores scanner.Err; C62_long_refuted). The limit of truncatingFormat is meant to prevent this for Equal, but does not if the types differ and a type name has 73 bytes or more: then neither value is shown (C62_equal_refuted). Greater, GreaterOrEqual, Less, LessOrEqual, Positive and Negative pass `msgAndArgs` without `...`: the message of the user is not formatted but shown as `[message arguments]`, and `[]` if there is none (C62_compare_message, C62_compare_message_refuted). The failure texts of Positive and Negative end with `%!(EXTRA int=0)` (C62_sign_says).
36. Assertions that pass wrongly: InDeltaSlice and InEpsilonSlice only look at as many elements as the actual slice has, so slices of different lengths pass, and an expected slice that is shorter makes them panic (C63_slices, C63_slices_refuted). InDelta passes for different integers beyond 2^53 even with delta 0 (C63_delta_refuted), and for all numbers with NaN as delta (C63_delta_nan; InEpsilon has a check for that).
37. A copy of a schema keeps the pointer to the tracer of the original (copy_schema.go 72), so requests with tracing that run at the same time on two copies write to one trace: a data race, and traces that contain each other's resolvers (C64_tracer, C64_tracer_refuted). Nothing else that requests write to is shared by the records (C64_only_tracer); the caches of finding 22 are reached through a method value of the original. qlType.copy assigns the name instead of the description (copy_schema.go 135-138), which is how the descriptions of enums get lost and why it would panic for a type with a description and no name (C64_panics); no enum is such a type.
38. Four assertions do not do what they say. InEpsilon passes for every actual number if the expected one is infinite, because the relative error is then NaN, which is not greater than epsilon (C65_epsilon_any, C65_epsilon_refuted). Panics fails for a function that calls panic(nil), which with the go 1.16 of go.mod cannot be told from returning by recover() (C65_panics_refuted). Equal fails and NotEqual passes for a value compared with itself if it contains NaN (C65_reflexive_refuted). InEpsilonSlice gives InEpsilon the elements the wrong way round, so the error is relative to the actual element: 126 passes for 100 with epsilon 0.25, 100 does not for 126 (C65_epsilon_slice_refuted).
39. A failure in a test whose files are in a directory named assert, mock or require has no trace at all (assert.go 116-121; C66_trace_refuted). JSONEq compares numbers as float64: it passes for 9007199254740992 and 9007199254740993 (C66_json_refuted).
40. Reports of a failed Equal: for two pointers to different strings the diff is empty, because typeAndKind looks through the pointer and diff then takes reflect.Value.String of the pointer, which is `<*string Value>` (assert.go 757-791; C67_pointer_to_string_refuted). A value and a pointer to a value of the same type get a diff although their types differ (C67_one_type_refuted). The values are shortened to keep lines within what go test reads, but the diff repeats them in full: a string of 65600 bytes gives a longer line (C67_line_refuted).

Seen while modelling, not the subject of a theorem: keywords are not word-bounded (`queryfoo{a}` is a query named `foo`); `-` or `.` alone are accepted as numbers; unknown escapes `\x` are accepted; raw NUL bytes inside strings are dropped; `... on InterfaceName` on a concrete object selects nothing; an integer literal is accepted for a boolean argument; JSON null for an enum, ID, file or time argument is an error; variables for lists of pointers are always refused; `getFormFile` is called without a nil test when a file is given as variable (resolver.go 1157); after variables failed to parse once in a request later uses see none (variablesParsed); pointers to implementations inside interfaces never match and give null.

## Mutation tests

`seeded/LOG.jsonl`: one line for each edit of a model definition in a scratch copy, with the claim it breaks, the first proofs that failed in
the rebuild, and the property theorems that were no longer established. An edit that survives is followed by the theorem that was added or tightened.
