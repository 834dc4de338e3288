{"claims": [
{"property": "C01", "status": "proved", "theorems": ["C01_parser_returns"], "note": "Parser model returns (no panic, no fuel exhaustion) for every byte string and target."},
{"property": "C02", "status": "proved", "theorems": ["C02_accepted_query_denotes_its_bytecode", "C02_document_is_unique"], "note": "Accepted text is in the grammar and the bytecode, fragment table and target index are those of its document."},
{"property": "C03", "status": "proved", "theorems": ["C03_grammar_is_accepted", "C03_rest_is_rejected"], "note": "Exactly the texts of Grammar.v are accepted."},
{"property": "C04", "status": "proved", "theorems": ["C04_print_then_parse"], "note": "All legal documents, any gap text. Legal excludes fields with arguments whose last directive has no arguments: these cannot be written (see C09)."},
{"property": "C05", "status": "proved", "theorems": ["C05_rejected_query_is_not_executed", "C05_parser_error_means_no_execution"], "note": "All byte strings outside the grammar, all schemas, all user code: the world is unchanged, data is {}, at least one error."},
{"property": "C06", "status": "proved", "theorems": ["C06_error_locations", "C06_last_error_is_where_parsing_stopped", "C06_place_is_unique"], "note": "Line and column against an independent description of line ends."},
{"property": "C07", "status": "proved", "theorems": ["C07_gaps_do_not_matter", "C07_inserting_ignored_text", "C07_gap_text_is_irrelevant", "C07_glued_tokens_refuted"], "note": "For all texts, accepted or not, with the same tokens and any ignored text between them, and for insertion of ignored text at any token boundary. Not claimed (and refuted by witness): gaps behind $ and @ and between ] and !, which this parser refuses although GraphQL allows them."},
{"property": "C08", "status": "proved", "theorems": ["C08_parser_selects_the_operation", "C08_no_such_operation", "C08_last_selected_operation_is_executed"], "note": "The parser hands the position of the last selected operation to the interpreter (all documents). The statement about the answer (only that operation and the fragments matter) is for documents without zero bytes in strings, bytecode below 4 GiB and runs inside the scope of Interp.v (in_scope)."},
{"property": "C09", "status": "proved", "theorems": ["C09_args_then_directives_refuted", "C09_arguments_need_a_closed_directive"], "note": "REFUTED: the property is false of the code; a field with arguments followed by directives is a syntax error."},
{"property": "C10", "status": "proved", "theorems": ["C10_partial", "C10_block_partial", "C10_pair_refuted", "C10_nul_refuted", "C10_indent_refuted"], "note": "REFUTED: an escaped surrogate pair arrives as two replacement characters, an escaped U+0000 ends the string, and block strings lose all indentation instead of the common indentation. Proved for every quoted string without these two escapes and for block strings without indentation, quotes and backslashes."},
{"property": "C11", "status": "proved", "theorems": ["C11_code_target_errors_are_transparent", "C11_transparent_without_fragments", "C11_transparent_on_miss", "C11_fragment_table_refuted"], "note": "REFUTED: the fragment table of a cached query is overwritten by the next parsed query, because SetEntry keeps the slice without copying. Bytecode, selected operation, errors and number of fragments are transparent for all histories, and everything is for queries without fragments and on cache misses."},
{"property": "C12", "status": "proved", "theorems": ["C12_cache_is_bounded"], "note": ""},
{"property": "C13", "status": "proved", "theorems": ["C13_cached_entries_are_error_free", "C13_rejected_each_time"], "note": ""},
{"property": "C14", "status": "proved", "theorems": ["C14_response_is_json", "C14_one_value", "C14_argument_error_refuted", "C14_typename_selection_refuted"], "note": "REFUTED as stated: a failing method argument or a sub-selection (or arguments) on __typename leaves a key without value in the text. True variant proved for all queries, schemas and resolvers: without errors, or without arguments and without such sub-selections, the response is one JSON object; and a text denotes at most one JSON value."},
{"property": "C15", "status": "proved", "theorems": ["C15_errors_of_the_response_are_the_returned_errors"], "note": "All requests, all schemas, all user code; requests that panic or do not return have no response."},
{"property": "C16", "status": "proved", "theorems": ["C16_document_is_executed", "C16_only_the_document_is_executed", "C16_response_is_determined", "C16_after_an_error_refuted"], "note": "For every regular request the error-free answer is exactly the one the readable execution relation (Spec.v) gives, with the same calls, and that answer is unique. REFUTED after an error: a binding error in one field drops the later siblings (C16_after_an_error_refuted)."},
{"property": "C17", "status": "proved", "theorems": ["C17_spread_is_the_fragment_of_that_name", "C17_same_answer_with_errors", "C17_prefix_refuted"], "note": "REFUTED: a spread takes the first fragment whose name starts with the name of the spread (C17_prefix_refuted). Corrected: where no fragment name is the beginning of another, replacing a spread by the body of the fragment with exactly that name gives the same answer: error-free answers (C17_spread...), and response, errors and calls in general (C17_same_answer_with_errors, fragments without cycles)."},
{"property": "C18", "status": "proved", "theorems": ["C18_skip_and_include", "C18_same_answer_with_errors"], "note": "Removing the selections that are left out and the directives that leave nothing out, at all places of operation and fragments, with literal or variable conditions, gives the same answer: error-free answers (C18_skip_and_include), and response, errors and calls in general (C18_same_answer_with_errors)."},
{"property": "C19", "status": "proved", "theorems": ["C19_bound_partial", "C19_reported", "C19_null", "C19_interface_refuted"], "note": "REFUTED: through interfaces the depth grows by two per level and only equality with MaxDepth is tested, so a request can pass the limit. Without interfaces: bound on the nesting of every answer (also with errors), error whenever an object at or below the limit is asked for, and null plus one error at the exact place."},
{"property": "C20", "status": "proved", "theorems": ["C20_requests_return", "C20_cycle_refuted"], "note": "REFUTED as stated: a document whose fragments spread each other in a cycle is accepted by the parser and its execution never returns (C20_cycle_refuted holds for every number of steps). Corrected and proved: every request whose fragments have no cycle returns (C20_requests_return), under the interpreter limits named in the statement."},
{"property": "C21", "status": "proved", "theorems": ["C21_unknown", "C21_reported", "C21_collision_refuted"], "note": "REFUTED: a name with the FNV-1 hash of a field is served that field's value, without an error (witness: token / aokhely). For names without such a collision: exact answer (null, one error naming field and type, with the path) when asked for alone, and for any regular request in which an unknown field is selected on an object of the data the answer has an error."},
{"property": "C22", "status": "proved", "theorems": ["C22_siblings_do_not_disturb", "C22_deep_refuted"], "note": "REFUTED for more than 255 values inside each other (uint8 index wraps). Corrected: within the limits the answer to ss1 ss2 is the answer to ss1 followed by the answer to ss2."},
{"property": "C23", "status": "proved", "theorems": ["C23_error_paths", "C23_errors_of_a_field", "C23_resolver_paths", "C23_resolver_of_a_field", "C23_get_path", "C23_recording"], "note": "Every error path leads to a value of the response or to a field left out by its directives; errors of one field begin with its path. Every call of a resolver sees the path of its own field, which leads to a value of the response; directives see the path of their field. GetPath is proved to give this path as a JSON list. Any user code can be observed so (C23_recording)."},
{"property": "C24", "status": "proved", "theorems": ["C24_signed", "C24_unsigned", "C24_unsigned_minus", "C24_minus_zero_refuted", "C24_ranges"], "note": "REFUTED only for the literal -0 on an unsigned argument, which is refused although it denotes 0. Every other integer literal is proved exact or refused, for every width, directly or behind pointers."},
{"property": "C25", "status": "proved", "theorems": ["C25_signed", "C25_unsigned_low_bits", "C25_unsigned_partial", "C25_truncated_refuted", "C25_large_refuted"], "note": "REFUTED: a JSON number for an unsigned 8/16/32 bit argument is silently truncated (256 becomes 0 for uint8) and numbers from 2^63 are refused for uint64. Signed arguments are proved exact or refused; unsigned arguments are proved to receive exactly the low bits."},
{"property": "C26", "status": "proved", "theorems": ["C26_signed64", "C26_not_a_number", "C26_low_bits", "C26_truncated_refuted", "C26_large_refuted"], "note": "REFUTED: an ID for a narrow integer is truncated (300 becomes 44 for int8) and IDs from 2^63 are refused for uint64. For 64 bit signed integers the claim is proved; non-numbers are proved refused; narrower widths are proved to receive the low bits."},
{"property": "C27", "status": "proved", "theorems": ["C27_partial", "C27_after_list_refuted", "C27_nested_list_refuted", "C27_last_null_refuted", "C27_null_element_refuted"], "note": "REFUTED: arguments after a list literal are dropped, lists of lists are cut, a pointer to an object whose last member is null stays nil, null in a list of pointers is an error. Without these (calm literals, lists only as last argument) every written argument is proved to be bound structurally, for any nesting of objects and any number of arguments."},
{"property": "C28", "status": "proved", "theorems": ["C28_value", "C28_default", "C28_no_value", "C28_undeclared", "C28_other_type_partial", "C28_lenient", "C28_no_object", "C28_other_type_refuted"], "note": "REFUTED for the type clause only: a boolean argument accepts a variable declared with any scalar type. Value, default, missing value and undeclared variable are proved in full; another type is proved refused except for the listed lenient cases (C28_other_type_partial, C28_lenient)."},
{"property": "C29", "status": "proved", "theorems": ["C29_partial", "C29_overwritten", "C29_refuted"], "note": "REFUTED: string arguments are references into the bytecode buffer; a later request whose bytecode covers the place and fits into the array puts its own bytes there (witness: a resolver that kept \"secret\" then reads \"public\"). Proved: what exactly is read after a further request, and that strings stay while later bytecodes end before them, or once the buffer has moved to another array. Strings from JSON variables refer to the buffer of the JSON library, which is not modelled."},
{"property": "C30", "status": "proved", "theorems": ["C30_requests_are_independent", "C30_with_fragments_and_cache_refuted"], "note": "REFUTED for cached queries with fragments (the shared fragment table, C11): the same request is answered differently after another one. Proved for every left-over reflect value and every history of the parser context when the query has no fragments, is too short for the cache, or is not in the cache."},
{"property": "C31", "status": "proved", "theorems": ["C31_string_is_encoded_faithfully", "C31_no_control_characters", "C31_no_confusion"], "note": ""},
{"property": "C32", "status": "proved", "theorems": ["C32_encoding", "C32_signed", "C32_unsigned", "C32_bool", "C32_id"], "note": "For data fields of any integer width, booleans, strings, IDs, and lists, arrays and pointers of these (fewer than 254 nested lists)."},
{"property": "C33", "status": "proved", "theorems": ["C33_output", "C33_input", "C33_round_trip"], "note": "For enums as RegisterEnum builds them (distinct names, values of one kind); names given as enum literal, as string or as variable."},
{"property": "C34", "status": "proved", "theorems": ["C34_utc_times_round_trip", "C34_shift_by_offset", "C34_other_offsets_refuted", "C34_year_10000_refuted", "C34_text", "C34_read_exactly"], "note": "REFUTED: the claim is false for every time whose location has a non-zero offset from UTC and for years above 9999; proved for all times in UTC with years 0..9999. Go's time.Format and time.Parse are modelled for the one layout used. The texts read are characterised exactly."},
{"property": "C35", "status": "proved", "theorems": ["C35_default_name", "C35_default_name_refuted", "C35_tag_name", "C35_dash_hides", "C35_names_are_writable", "C35_names_are_writable_refuted", "C35_method_name", "C35_method_resolve_refuted", "C35_methods_exactly", "C35_method_letters_refuted"], "note": "REFUTED: names as X1 keep their capital letter, non-ASCII first letters give names no query can contain, and a method named Resolve makes schema parsing panic. The corrected naming rule, tags, '-' and writability of ASCII names are proved."},
{"property": "C36", "status": "proved", "theorems": ["C36_internal_fields_refuted", "C36_exposed_exactly"], "note": "REFUTED: unexported fields are exposed. C36_exposed_exactly says exactly which fields are."},
{"property": "C37", "status": "proved", "theorems": ["C37_set_value", "C37_set_context", "C37_panics", "C37_sequences", "C37_no_panic_refuted"], "note": "REFUTED in the last clause: SetContext panics for a request without context and SetValue for a pointer to a nil map; the exact condition is C37_panics. The rest holds for all sequences that do not panic."},
{"property": "C38", "status": "proved", "theorems": ["C38_batch_is_one_by_one", "C38_nested_batch_is_an_error", "C38_stateless_items_are_independent", "C38_error_response_is_json", "C38_batch_response_is_json", "C38_items_share_values_refuted"], "note": "REFUTED in the last clause: items share the map of context values, so a value set by one is seen by the next. One response per item, in order, each equal to handling the item alone in the state left by the ones before, holds for all batches; independence holds for stateless resolvers. Resolve and the JSON parser are parameters."},
{"property": "C39", "status": "proved", "theorems": ["C39_body_is_executed", "C39_malformed_body_is_an_error", "C39_url_otherwise", "C39_content_type_parameter_refuted"], "note": "REFUTED for content types with a parameter (application/json; charset=utf-8), whose body is ignored. For the literal content types the whole dispatch is proved; text/plain bodies are read as JSON too. Resolve and the JSON parser are parameters."},
{"property": "C40", "status": "proved", "theorems": ["C40_copies_answer_alike", "C40_copies_answer_alike_introspection", "C40_copies_answer_alike_refuted", "C40_enums_are_copied_refuted"], "note": "REFUTED: __type on a copy shows hidden fields and has lost enum descriptions. Proved: for any outside functions a copy resolves every request exactly as the original; with introspection, every request that does not call __type."},
{"property": "C41", "status": "proved", "theorems": ["C41_copies_are_apart", "C41_copies_are_apart_refuted"], "note": "REFUTED: requests on copies that look at __schema read and write the cache of the original. Proved: all other requests touch only their own cache and do not depend on others."},
{"property": "C42", "status": "proved", "theorems": ["C42_introspection_is_stable", "C42_introspection_is_stable_refuted", "C42_order_of_parts_refuted", "C42_structs_and_interfaces_refuted"], "note": "REFUTED: mutationType.fields is cached under the name of the query; structs and interfaces with one name share a cache entry. Proved: stable over all histories that do not call mutationType.fields, if no interface has the name of a struct."},
{"property": "C43", "status": "proved", "theorems": ["C43_success_registers_everywhere", "C43_names_are_unique", "C43_new_schema", "C43_builtin_directives_stay", "C43_single_location_is_atomic", "C43_atomic_refuted", "C43_builtin_enums_stay", "C43_enum_name_taken_refuted", "C43_builtin_places"], "note": "REFUTED: a registration refused at a later location stays in effect at the earlier ones, and an enum with a built-in name is accepted (but never used). Uniqueness and availability hold for all sequences."},
{"property": "C44", "status": "proved", "theorems": ["C44_parsing_returns", "C44_parsing_returns_refuted", "C44_struct_names_are_unique", "C44_struct_names_are_unique_refuted", "C44_argument_names_are_unique_refuted", "C44_recorded_once_refuted"], "note": "REFUTED in four ways: type L []L makes Parse recurse without end; argument structs of different packages with equal names are taken for one type; with a registered implementation a struct's record is replaced by that of another package; types without names are recorded again at each place. Proved: Parse returns for every program whose cycles of declarations go through a struct or interface with a name, and in a schema that was built (names of one package apart) two reachable structs never have the same name."},
{"property": "C45", "status": "proved", "theorems": ["C45_right_exactly_for_symmetric_marks", "C45_right_without_lists", "C45_type_names_refuted"], "note": "REFUTED: a list of non-null Int is printed [Int]!; the notation is right exactly for types whose marks read the same in both directions."},
{"property": "C46", "status": "proved", "theorems": ["C46_panic_refuted", "C46_injected_refuted"], "note": "REFUTED: an escaped U+0000 in a string literal ends the string in the bytecode and the following characters are executed as instructions; a legal query can read fields it does not ask for or make the request panic. For documents without U+0000 in values the answer is what the document asks for (C16 and C20 theorems)."},
{"property": "C47", "status": "proved", "theorems": ["C47_copied", "C47_reused", "C47_refuted"], "note": "REFUTED: the response of a single request is s.Result itself and is overwritten by the next request; batch responses are copies and stay."},
{"property": "C48", "status": "proved", "theorems": ["C48_schema_describes_types", "C48_parsed_schemas_are_closed", "C48_special_types", "C48_zero_values"], "note": "for all programs, registrations and roots with names apart (named_apart, inputs_apart: no two types of one package with the same GraphQL name, no registered implementation with the name of a type of another package; C44 has what happens otherwise); C48_special_types: which types count as errors, implementations, times, uploads, contexts and ID marks; C48_zero_values: the zero values of Go types"},
{"property": "C49", "status": "proved", "theorems": ["C49_introspection_describes_the_program", "C49_enum_arguments_refuted", "C49_input_fields_refuted", "C49_directive_arguments_refuted", "C49_interface_arguments_refuted", "C49_names_refuted", "C49_enum_value", "C49_field", "C49_argument", "C49_type", "C49_directive"], "note": "Proved for the names, kinds, members, types, arguments, interfaces, possible types, enum values and the list of types of every parsed schema after any history, given distinct names and distinct field hashes. REFUTED: enum arguments are reported as scalars, directive arguments are missing, inputFields is empty when reached through an argument, the first argument of interface methods is missing, and a struct can share its name with a scalar."},
{"property": "C50", "status": "proved", "theorems": ["C50_no_request_panics", "C50_unexported_time_refuted", "C50_method_in_unexported_field_refuted", "C50_unexported_argument_refuted", "C50_unexported_input_field_refuted", "C50_enum_of_other_package_refuted", "C50_file_without_function_refuted", "C50_local_types_refuted"], "note": "Proved under the stated rules; each _refuted theorem drops one rule and shows a panicking request. Uses readable (C22 and cut argument lists excluded)."},
{"property": "C51", "status": "proved", "theorems": ["C51_encoding", "C51_float64", "C51_float32", "C51_not_finite", "C51_distinct", "C51_response", "C51_infinity_refuted"], "note": "Proved for finite numbers: the text reads back, has the fewest digits, is the nearest of those, and has the form of ECMAScript. REFUTED for infinity and NaN, which are written as 0.0 and so read as another number."},
{"property": "C52", "status": "proved", "theorems": ["C52_float", "C52_no_number", "C52_integer", "C52_text", "C52_round_trip", "C52_integer_refuted", "C52_float32_refuted", "C52_overflow32_refuted", "C52_round_trip_refuted"], "note": "REFUTED in four points: integer literals outside int64 are refused; float32 arguments are rounded twice (witness 7.038531e-26); a literal too large for float32 becomes infinity; 10^20 and -0 do not come back. Proved otherwise: float64 arguments receive the nearest number, and every float64 comes back unless its text is an integer outside int64 or -0. Literals of more than 9000 characters are left out (strconv stops counting exponents at 10000)."},
{"property": "C53", "status": "proved", "theorems": ["C53_same_answer", "C53_parsed", "C53_recorded", "C53_every_field_once", "C53_return_type", "C53_times", "C53_field", "C53_trace_is_json", "C53_response_is_json", "C53_not_executed", "C53_parents_span_children_refuted", "C53_validation_follows_parsing_refuted", "C53_list_type_refuted"], "note": "Same data, errors and effects with and without tracing; exactly the entries that the response calls for, each with its path, parent, name and type; all spans in order inside the request; the trace and the response are JSON. REFUTED parts: the entry of an object starts with the last field started inside it; validation starts before parsing ends; list types are misprinted."},
{"property": "C54", "status": "proved", "theorems": ["C54_get_type", "C54_has_type", "C54_type_kind", "C54_has_fields", "C54_only_has_fields", "C54_copies_refuted", "C54_after_mutation_fields_refuted"], "note": "Proved for the schema itself, after any requests in which mutationType.fields was not asked for, for programs whose type names are distinct (else C49_names_refuted), field names have distinct hashes (else C21) and are UTF-8, and depth limits other than 1 and 2. REFUTED for copies of a schema and after mutationType.fields, with witnesses."},
{"property": "C55", "status": "proved", "theorems": ["C55_longest", "C55_infrequent", "C55_longest_refuted", "C55_run", "C55_blocks", "C55_opcodes", "C55_no_common", "C55_no_common_refuted", "C55_groups", "C55_patch", "C55_empty", "C55_message", "C55_cache_refuted"], "note": "REFUTED in part: from 200 lines on the run found need not be the longest and a frequent line can be removed and added in one place (C55_longest_refuted, C55_no_common_refuted; below 200 lines both hold: C55_longest, C55_no_common; at any size no run of infrequent lines is longer than the one found: C55_infrequent); GetOpCodes after GetGroupedOpCodes is wrong (C55_cache_refuted). Everything else is proved for all lists: runs, ranges, groups, the printed diff (C55_patch, C55_message) and emptiness (C55_empty)."},
{"property": "C56", "status": "proved", "theorems": ["C56_answers_have_the_announced_types", "C56_as_introspection_says", "C56_enum_values_refuted", "C56_int_refuted", "C56_failed_fields_refuted"], "note": "For programs whose enum values are registered ones and with Int for all Go integers; REFUTED without either, and GraphQL's rule for null at non-null types with errors is not followed."},
{"property": "C57", "status": "proved", "theorems": ["C57_introspection_does_not_panic"], "note": "Under the rules for authors of C50. Uses readable (C22 and cut argument lists excluded); what runs out of fuel in the model is not a panic (see C20)."},
{"property": "C58", "status": "proved", "theorems": ["C58_directives_told", "C58_told_is_usable", "C58_unknown", "C58_reported", "C58_failed_registration_refuted", "C58_places_refuted", "C58_names_refuted"], "note": "For registrations that succeeded and the three places there are. REFUTED after a registration that failed (C43), for numbers that are no place, and as to names being unique."},
{"property": "C59", "status": "proved", "theorems": ["C59_call", "C59_links", "C59_listed", "C59_registered", "C59_told", "C59_rename", "C59_trimmed_once", "C59_interfaces_of_one_name_refuted", "C59_structs_of_one_name_refuted", "C59_rename_refuted"], "note": "Proved for programs in which, among the registered types, interfaces of one name are one and structs of one name are one (calls_apart). REFUTED without it: the tables are keyed by Go names without packages."},
{"property": "C60", "status": "proved", "theorems": ["C60_document", "C60_texts", "C60_places"], "note": "bytecode shorter than 4 GiB (lengths are kept in four bytes)"},
{"property": "C61", "status": "proved", "theorems": ["C61_expected", "C61_passes", "C61_both_refuted", "C61_undescribed_refuted"], "note": "for descriptions without a field that has both arguments and a selection; REFUTED for those that have one (finding 34)"},
{"property": "C62", "status": "proved", "theorems": ["C62_report", "C62_all_shown", "C62_fail", "C62_equal", "C62_order_says", "C62_sign_says", "C62_compare_message", "C62_long_refuted", "C62_equal_refuted", "C62_compare_message_refuted"], "note": "lines up to 65535 bytes and type names up to 72 bytes; REFUTED beyond these and for the messages of the comparing assertions (finding 35)"},
{"property": "C63", "status": "proved", "theorems": ["C63_order", "C63_sign", "C63_delta", "C63_delta_numbers", "C63_delta_infinite", "C63_slices", "C63_delta_nan", "C63_delta_refuted", "C63_slices_refuted"], "note": "orders as stated; InDelta is about the rounded difference; REFUTED for slices of different lengths and integers beyond 2^53 (finding 36)"},
{"property": "C64", "status": "proved", "theorems": ["C64_content", "C64_apart", "C64_copies_apart", "C64_shared", "C64_again", "C64_panics", "C64_state", "C64_tracer", "C64_only_tracer", "C64_tracer_refuted"], "note": "content up to hidden marks and descriptions of enums (finding 22); REFUTED for the tracer, which is shared (finding 37)"},
{"property": "C65", "status": "proved", "theorems": ["C65_equal", "C65_not_equal", "C65_reflexive", "C65_symmetric", "C65_transitive", "C65_reflexive_refuted", "C65_empty", "C65_nil", "C65_map_values", "C65_panics", "C65_panics_refuted", "C65_epsilon", "C65_epsilon_numbers", "C65_epsilon_infinite", "C65_epsilon_any", "C65_epsilon_refuted", "C65_epsilon_slice_refuted"], "note": "REFUTED for InEpsilon with an infinite expected number, for InEpsilonSlice, for Panics with panic(nil) and for NaN (finding 38)"},
{"property": "C66", "status": "proved", "theorems": ["C66_trace", "C66_test_is_last", "C66_trace_refuted", "C66_error_is", "C66_chain", "C66_error_as", "C66_errors", "C66_zero", "C66_json", "C66_json_refuted"], "note": "REFUTED: tests in directories named assert, mock or require have no trace; numbers in JSON are compared as float64 (finding 39)"},
{"property": "C67", "status": "proved", "theorems": ["C67_report", "C67_diff", "C67_pointers", "C67_strings", "C67_pointer_to_string_refuted", "C67_one_type_refuted", "C67_line_refuted"], "note": "REFUTED: the diff of pointers to strings is empty, a value and a pointer get a diff, lines of the diff are not limited (finding 40)"}
]}
