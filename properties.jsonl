{"id": "C01", "title": "Query parsing always returns", "statement": "Handing any byte string (valid GraphQL or garbage, any encoding, truncated anywhere) with any operation target to the query parser returns after finitely many steps: it neither hangs nor panics on an out-of-range index.", "quantifier": "all byte strings as query, all operation targets", "why_tests_cant": "The input space is infinite and the parser reads one byte past many tokens; a test only samples finitely many truncation points.", "anchors": ["bytecode/bytecode.go: ParserCtx.ParseQueryToBytecode, parseOperatorOrFragment, parseSelectionSet, parseInputValue, parseStringInputValue, currentC, checkC"]}
{"id": "C02", "title": "An accepted query is executed as the document it denotes", "statement": "If the parser reports no error for a query, then the query text belongs to the supported grammar, and the bytecode is exactly the encoding of a document (operations, fragments, fields, aliases, arguments, directives) with that text; nothing is dropped, duplicated or re-ordered.", "quantifier": "all byte strings accepted by the parser", "why_tests_cant": "Tests compare a few dozen hand-written queries; this is about every accepted text, including odd spacing, comments, commas, nesting.", "anchors": ["bytecode/bytecode.go: all parse* functions", "bytecode/bytecode_instructions.go", "bytecode/testing_framework.go: toBytes"]}
{"id": "C03", "title": "Every text of the supported grammar is accepted", "statement": "Every byte string that belongs to the supported grammar is accepted without error and gives the encoding of its document.", "quantifier": "all documents and all texts of the grammar denoting them", "why_tests_cant": "Unbounded nesting and token combinations.", "anchors": ["bytecode/bytecode.go: all parse* functions"]}
{"id": "C04", "title": "Print then parse is the identity", "statement": "Writing any document out as text in canonical form and parsing that text yields exactly the bytecode encoding of the document, for all documents whose names are legal (1..254 characters) and which have at most 255 directives per place.", "quantifier": "all legal documents of any size and depth", "why_tests_cant": "Infinite set of documents; tests sample shapes of depth at most four or so.", "anchors": ["bytecode/bytecode.go", "bytecode/testing_framework.go: toBytes"]}
{"id": "C05", "title": "A rejected query is never executed", "statement": "If the parser reports an error for a query, no resolver is called, the data of the response is the empty object and the error list is non-empty.", "quantifier": "all byte strings rejected by the parser, all schemas, all user resolvers", "why_tests_cant": "Needs every rejected query, including ones where a nested error is swallowed half way (inline fragments).", "anchors": ["resolver.go: Schema.Resolve, BytecodeCtx.BytecodeResolve", "bytecode/bytecode.go: parseSelectionSet (ignored result of the nested call)"]}
{"id": "C06", "title": "Error locations point at the offending character", "statement": "The line reported with a syntax error is one plus the number of line terminators (LF, CR, or CRLF counted once) before the position at which parsing stopped, and the column is the number of characters since the last of these.", "quantifier": "all queries, all stop positions", "why_tests_cant": "Mixed line endings at every offset cannot be enumerated.", "anchors": ["bytecode/bytecode.go: ParserCtx.err"]}
{"id": "C07", "title": "Ignored tokens do not change the meaning", "statement": "Inserting any amount of white space, line terminators or comments before a token that may be preceded by ignored tokens changes neither acceptance nor the bytecode.", "quantifier": "all queries, all insertion points between tokens, all ignored texts", "why_tests_cant": "Infinitely many texts between any two tokens.", "anchors": ["bytecode/bytecode.go: mightIgnoreNextTokens, isIgnoredToken, parseComment, isLineTerminator"]}
{"id": "C08", "title": "Operation selection", "statement": "Without a target the last operation of the document is executed; with a target the last operation with exactly that name is executed; if there is none an error is reported and no resolver is called.", "quantifier": "all documents, all target names", "why_tests_cant": "Any number and order of operations and fragments.", "anchors": ["bytecode/bytecode.go: parseOperatorOrFragment (TargetIdx)", "resolver.go: BytecodeResolve"]}
{"id": "C09", "title": "Fields may carry arguments followed by directives", "statement": "A field written with arguments followed by directives, as in the GraphQL specification, is accepted and means the field with these arguments and directives.", "quantifier": "all fields with arguments and directives", "why_tests_cant": "A claim over the whole grammar.", "anchors": ["bytecode/bytecode.go: parseSelectionSet (directives before arguments)"]}
{"id": "C10", "title": "String literals reach the resolver unchanged", "statement": "The text between the quotes of a string literal, after resolving the GraphQL escape sequences, is exactly the string given to the resolver.", "quantifier": "all string literals", "why_tests_cant": "Infinitely many strings and escape combinations.", "anchors": ["bytecode/bytecode.go: parseStringInputValue", "resolver.go: bindInputToGoValue, getValue"]}
{"id": "C11", "title": "Cached parsing is transparent", "statement": "For every history of parsed queries, the result of parsing a query (bytecode, selected operation, fragment table) is the same whether or not earlier parses were cached.", "quantifier": "all histories of queries, targets and cache thresholds, all eviction choices", "why_tests_cant": "Depends on the history of earlier calls and on shared backing arrays; a test runs one history.", "anchors": ["bytecode/cache/bytecode_cache.go: GetEntry, SetEntry", "bytecode/bytecode.go: ParseQueryToBytecode"]}
{"id": "C12", "title": "The query cache is bounded", "statement": "After any history of queries the cache holds at most 100 query lengths and at most 20 entries for each length.", "quantifier": "all histories, all eviction choices", "why_tests_cant": "Only an invariant over all histories says so.", "anchors": ["bytecode/cache/bytecode_cache.go: SetEntry"]}
{"id": "C13", "title": "Only error free parses are cached", "statement": "Every entry in the cache is the error free result of parsing its query with its target; a rejected query is re-parsed (and re-reported) each time.", "quantifier": "all histories", "why_tests_cant": "History property.", "anchors": ["bytecode/cache/bytecode_cache.go", "bytecode/bytecode.go: ParseQueryToBytecode"]}
{"id": "C14", "title": "The response is always valid JSON", "statement": "Whatever the query, variables, schema and resolver results, the bytes written as the response are one well-formed JSON object.", "quantifier": "all queries, variables, schemas, data and resolver behaviours", "why_tests_cant": "Responses after errors at every possible place of every query cannot be enumerated.", "anchors": ["resolver.go: BytecodeResolve, resolveSelectionSet, resolveField, resolveFieldDataValue"]}
{"id": "C15", "title": "Reported errors equal returned errors", "statement": "The errors array of the response lists exactly the errors returned to the caller, in order; it is absent when there are none.", "quantifier": "all requests", "why_tests_cant": "Over all requests and error combinations.", "anchors": ["resolver.go: BytecodeResolve"]}
{"id": "C16", "title": "Execution follows the document", "statement": "The data of the response contains one entry for each selected field, in document order with fragments expanded in place, keyed by alias or name, whose value is the value of the Go field or of the resolver applied to the literal arguments, recursively; each resolver is called exactly once for each occurrence, in document order.", "quantifier": "all documents without list literals, all schemas, data and (stateful) resolver behaviours", "why_tests_cant": "Infinite documents, data and resolver state; order and multiplicity of side effects.", "anchors": ["resolver.go: resolveSelectionSet, resolveField, resolveSpread, resolveFieldDataValue, callQlMethod"]}
{"id": "C17", "title": "A fragment spread uses the fragment of that exact name", "statement": "A spread of a named fragment selects the fields of the fragment definition with exactly that name.", "quantifier": "all documents with any set of fragment names", "why_tests_cant": "Depends on relations between names of different fragments and their order.", "anchors": ["resolver.go: resolveSpread"]}
{"id": "C18", "title": "@skip and @include", "statement": "A field or fragment is omitted, and none of its resolvers is called, exactly when a directive on it says so: @skip(if: true) or @include(if: false); otherwise it is resolved as if the directive was not there.", "quantifier": "all documents, positions and directive values", "why_tests_cant": "All positions in all documents.", "anchors": ["directives.go: skip and include methods", "resolver.go: resolveDirective, resolveField, resolveSpread"]}
{"id": "C19", "title": "Depth limit", "statement": "No object nested at MaxDepth levels or deeper is resolved: instead null and an error are given, whatever the mixture of objects, lists, pointers and interfaces.", "quantifier": "all documents, data and MaxDepth values", "why_tests_cant": "Depth and mixture of nesting are unbounded.", "anchors": ["resolver.go: resolveFieldDataValue (dept, MaxDepth)"]}
{"id": "C20", "title": "Execution terminates", "statement": "Executing any accepted query returns, whatever the fragments.", "quantifier": "all accepted documents with finite data", "why_tests_cant": "Non-termination can not be observed by a test.", "anchors": ["resolver.go: resolveSpread, resolveSelectionSet"]}
{"id": "C21", "title": "Unknown fields are reported, never served", "statement": "Selecting a name that is not a field of the type gives an error and null; it never gives the value of another field.", "quantifier": "all types, all names", "why_tests_cant": "Field lookup is by a 32 bit hash; tests do not try colliding names.", "anchors": ["resolver.go: resolveField", "parse.go: getObjKey", "bytecode/bytecode.go: Hasher"]}
{"id": "C22", "title": "Sub-selections do not disturb their siblings", "statement": "Resolving a field leaves the value from which its sibling fields are resolved unchanged, whatever the depth of its sub-selection.", "quantifier": "all documents, data, depths", "why_tests_cant": "Needs nesting beyond the size of an internal 256 entry value stack.", "anchors": ["resolver.go: reflectValues, currentReflectValueIdx, setNextGoValue"]}
{"id": "C23", "title": "Error paths", "statement": "The path of an error raised while resolving a field is the list of response keys and list indices that leads to this field, and the path seen by a resolver is the path of its field.", "quantifier": "all documents, data and errors", "why_tests_cant": "All combinations of errors, early exits and nesting.", "anchors": ["resolver.go: resolveField, resolveFieldDataValue, GetPath, ErrorWPath"]}
{"id": "C24", "title": "Integer literals are exact or rejected", "statement": "An integer literal bound to a signed or unsigned integer argument of any width gives exactly the written number if it is in range and an error otherwise; it is never silently truncated.", "quantifier": "all integer literals, all integer kinds", "why_tests_cant": "Every boundary of every width for every digit string.", "anchors": ["resolver.go: bindInputToGoValue"]}
{"id": "C25", "title": "Integer variables are exact or rejected", "statement": "A JSON number given as variable and bound to an integer argument of any width gives exactly that number if it is in range and an error otherwise; it is never silently truncated.", "quantifier": "all JSON integers, all integer kinds", "why_tests_cant": "Every boundary of every width.", "anchors": ["resolver.go: bindJSONToValue"]}
{"id": "C26", "title": "IDs are exact or rejected", "statement": "An ID given as string for an integer typed ID argument gives exactly the number written if it fits the Go type and an error otherwise.", "quantifier": "all strings, all integer kinds", "why_tests_cant": "All boundaries of all widths.", "anchors": ["resolver.go: assignStringToValue, bindJSONToValue (isID)"]}
{"id": "C27", "title": "Argument lists and objects are bound structurally", "statement": "Arguments written as literals are given to the resolver structurally: element i of a list literal is element i of the slice, member m of an object literal is the field m, and every written argument is bound, independent of what other arguments are present.", "quantifier": "all argument literals of any nesting", "why_tests_cant": "Nesting and neighbouring arguments are unbounded.", "anchors": ["resolver.go: bindInputToGoValue, walkInputObject, callQlMethod"]}
{"id": "C28", "title": "Variables", "statement": "A variable used as argument gives the value in the JSON variables if present, otherwise the default value of its declaration, otherwise an error; using an undeclared variable or one declared with another type is an error.", "quantifier": "all operations, variables and values", "why_tests_cant": "All combinations of declarations, defaults and values.", "anchors": ["resolver.go: bindOperatorArgumentTo, findOperatorArgument, getVariable"]}
{"id": "C29", "title": "Strings given to resolvers are stable", "statement": "A string received by a resolver as argument keeps its value after the request, also when the schema handles further requests.", "quantifier": "all requests and later requests", "why_tests_cant": "Depends on later requests re-using the same memory.", "anchors": ["resolver.go: bindInputToGoValue, assignStringToValue (b2s)", "bytecode/bytecode.go: ParseQueryToBytecode (Res[:0])"]}
{"id": "C30", "title": "Requests are independent", "statement": "The response to a request does not depend on the requests the same schema handled before (for resolvers without state of their own).", "quantifier": "all histories of requests", "why_tests_cant": "Property of all histories.", "anchors": ["resolver.go: Schema.Resolve, BytecodeResolve (reset of BytecodeCtx)"]}
{"id": "C31", "title": "Strings are encoded as JSON faithfully", "statement": "The JSON encoding of any Go string is a valid JSON string literal, contains no raw control characters, and decodes to the string with invalid UTF-8 replaced by U+FFFD.", "quantifier": "all byte strings", "why_tests_cant": "Infinite input set, four byte sequences, truncated sequences.", "anchors": ["helpers/encodeString.go: StringToJSON"]}
{"id": "C32", "title": "Integers are encoded as JSON faithfully", "statement": "Integers of any width are written in decimal such that reading the decimal back gives the same integer; boolean values as true/false; fields marked as ID always as JSON string.", "quantifier": "all integers", "why_tests_cant": "All values of all widths.", "anchors": ["resolver.go: valueToJSON, resolveFieldDataValue (isID)"]}
{"id": "C33", "title": "Enum values round trip", "statement": "A registered enum value is written as a registered name with that value; the name given as input yields that value; unregistered values are written as null and unregistered names are errors.", "quantifier": "all enum registrations with distinct values, all values", "why_tests_cant": "All registrations.", "anchors": ["enums.go", "resolver.go: resolveEnumValue, bindInputToGoValue (enum)"]}
{"id": "C34", "title": "Times denote the same instant", "statement": "A time written to a response denotes the same instant, to the millisecond, when it is read back as input.", "quantifier": "all times in all time zones", "why_tests_cant": "All instants and zones.", "anchors": ["helpers/time.go: TimeToIso8601String, ParseIso8601String"]}
{"id": "C35", "title": "Field naming", "statement": "Every exported Go field gets the name in its gq tag or otherwise its Go name with the first letter in lower case (unchanged if the second letter is upper case as well), every name the schema accepts can be written in a query, and fields tagged '-' are not exposed.", "quantifier": "all struct types and tags", "why_tests_cant": "All names and tags.", "anchors": ["parse.go: formatGoNameToQL, parseFieldTagGQ, validGraphQlName, checkStructField"]}
{"id": "C36", "title": "Internal struct fields are not exposed", "statement": "Fields of a Go struct which are not exported are not part of the schema.", "quantifier": "all struct types", "why_tests_cant": "All types.", "anchors": ["parse.go: check, checkStructField", "README.md"]}
{"id": "C37", "title": "Context values", "statement": "After SetValue(k, v) the value of k is v and other keys are unchanged; after SetContext(c) the context is c; neither call panics, whatever the request options were.", "quantifier": "all sequences of calls, all request options", "why_tests_cant": "All sequences.", "anchors": ["resolver.go: Ctx.SetValue, GetValue, SetContext, GetContext"]}
{"id": "C38", "title": "Batch requests", "statement": "A JSON array of requests gives a JSON array with exactly one response per request, in the same order; each response is the one the request would get on its own.", "quantifier": "all batches of any length", "why_tests_cant": "All lengths and contents.", "anchors": ["implement_helpers.go: HandleRequest"]}
{"id": "C39", "title": "Request dispatch", "statement": "Requests with a malformed body or missing query get an error response and call no resolver; query, variables and operation name are taken from the body for JSON and multipart requests, otherwise from the URL.", "quantifier": "all methods, content types and bodies", "why_tests_cant": "All combinations.", "anchors": ["implement_helpers.go: HandleRequest, getBodyData"]}
{"id": "C40", "title": "A copied schema behaves like the original", "statement": "A schema made with Copy answers every request exactly as the original does.", "quantifier": "all schemas, all requests", "why_tests_cant": "All requests.", "anchors": ["copy_schema.go"]}
{"id": "C41", "title": "Copies do not share mutable state", "statement": "Handling requests on a copy writes to no memory that handling requests on the original or on another copy reads or writes, so that copies can be used concurrently.", "quantifier": "all schedules of requests over copies", "why_tests_cant": "Schedules.", "anchors": ["copy_schema.go", "inject_schema.go: getQLSchema"]}
{"id": "C42", "title": "Introspection is stable", "statement": "The answer to an introspection query does not depend on which introspection queries were made before.", "quantifier": "all histories of introspection queries", "why_tests_cant": "History property.", "anchors": ["inject_schema.go: getQLSchema, objToQLType"]}
{"id": "C43", "title": "Registration is atomic", "statement": "Registering a directive either makes it available at all requested locations or reports an error and changes nothing; names are unique for each location; built-in enum and directive names cannot be taken.", "quantifier": "all sequences of registrations", "why_tests_cant": "All sequences.", "anchors": ["directives.go: RegisterDirective", "enums.go: RegisterEnum"]}
{"id": "C44", "title": "Schema parsing terminates and is unambiguous", "statement": "Parsing a schema returns for all (also mutually recursive) Go types; each type is recorded once under its name and two different types never share a name.", "quantifier": "all type environments", "why_tests_cant": "All recursive type graphs.", "anchors": ["parse.go: check, checkFunctionInput"]}
{"id": "C45", "title": "Type notation in introspection and tracing", "statement": "The printed form of a type is the GraphQL notation of the type: the non-null mark follows the type it belongs to, lists are in brackets.", "quantifier": "all nestings of list and non-null", "why_tests_cant": "Unbounded nesting.", "anchors": ["inject_schema.go: objToQlTypeName"]}
{"id": "C46", "title": "String literals are data", "statement": "No query text makes Resolve panic on an out-of-range index, and nothing written inside a string literal is executed as an instruction: the response has only what the document asks for.", "quantifier": "all query texts", "why_tests_cant": "Infinitely many string contents; an escape that produces the terminator byte of the bytecode needs to be aimed at.", "anchors": ["bytecode/bytecode.go: parseStringInputValue", "resolver.go: bindInputToGoValue (getValue), resolveField"]}
{"id": "C47", "title": "Responses given to callers stay", "statement": "The response bytes and the errors that HandleRequest or Resolve gave to the caller keep their value when the schema handles further requests.", "quantifier": "all requests and later requests", "why_tests_cant": "Tests look at each response before the next request; whether the memory is used again depends on lengths and capacities.", "anchors": ["resolver.go: Resolve (s.Result[:0], return ctx.query.Errors)", "implement_helpers.go: HandleRequest", "bytecode/bytecode.go: ParseQueryToBytecode (Errors[:0])"]}
{"id": "C48", "title": "The schema has what the Go types have", "statement": "After Parse the schema has, for every Go type reachable from the query and the method struct, exactly the exposed fields and methods of that type under their GraphQL names, each with the type, arguments and results that the Go declaration gives it; and every reference in the schema (type, interface, enum, argument type, Go argument) leads to something recorded.", "quantifier": "all Go type environments, registrations and root types", "why_tests_cant": "All (also mutually recursive) type graphs; tests check the types they declare.", "anchors": ["parse.go: Parse, check, checkStructField, checkStructFieldFunc, checkFunction, checkFunctionIns, checkFunctionInput, checkFunctionInputStruct", "inject_schema.go: injectQLTypes"]}
{"id": "C49", "title": "Introspection tells what the Go program is", "statement": "For every type of the schema, `__type` gives its kind, name, interfaces and possible types, and exactly the exposed members with the types and arguments of their Go declarations, sorted by name; `__schema.types` lists every type once; this holds after any earlier requests.", "quantifier": "all Go programs that parse, all types in them, all histories of requests", "why_tests_cant": "Tests compare one introspection query on one schema; wrong nullability, a lost argument or a type shadowed by another show only for certain combinations of types.", "anchors": ["inject_schema.go: injectQLTypes, getQLSchema, getAllQLTypes, getTypeByName, inputToQLType, getMethodArgs, objToQLType, resolveObjToScalar", "enums.go: enumEntry qlType"]}
{"id": "C50", "title": "No request panics", "statement": "For a schema that Parse accepted, with root values, resolver results and directive functions that are as their Go types say and do not panic themselves, no request (whatever query text, operation name and variables) makes Resolve panic, provided the author kept to four rules: unexported fields contain no times, functions or methods, fields of argument structs are exported, types that share the name of an enum share its kind, and GetFormFile is given if there are file arguments.", "quantifier": "all Go programs that parse, all typed values, all resolver behaviours, all queries and variables", "why_tests_cant": "Whether a reflect call panics depends on the combination of a declared type, the dynamic value, the bytecode cursor and the argument given; the combinations are unbounded.", "anchors": ["resolver.go: resolveSelection, resolveField, resolveFieldDataValue, walkInputObject, bindInputToGoValue, bindExternalVariableValue, bindJSONToValue, resolveDirective", "parse.go: check, checkFunction, checkFunctionInput"]}
{"id": "C51", "title": "Floats are written as the shortest text that can be read back", "statement": "A finite float64 or float32 in the response, also in lists and behind pointers, is written as a JSON number which, read with correct rounding in its own precision, gives exactly the same number back, including the sign of zero; no text with fewer digits does so, and none with as many digits is nearer to the number; the point and the exponent are placed as ECMAScript does (plain from 1e-6 up to 1e21). Infinities and NaN are written as 0.0; so the response is JSON whatever floats occur in it.", "quantifier": "all bit patterns of float64 and float32, all nestings of lists and pointers, all schemas and worlds", "why_tests_cant": "There are 2^64 floats, and wrong last digits, wrong exponent forms (e-09 to e-9) or a misplaced point show up only at boundaries such as powers of two, 1e21 and 1e-6.", "anchors": ["helpers/encodeFloat.go: FloatToJSON", "resolver.go: resolveFieldDataValue, writing of float values"]}
{"id": "C52", "title": "Float arguments receive the nearest number", "statement": "A Float argument given as literal receives the float64 nearest to the written decimal (ties to even), or the request is refused if the number is too large or the literal is no number; an integer literal gives the nearest float64 too; what the response writes for a float can be given back as literal and the resolver receives the same float.", "quantifier": "all decimal literals of up to 9000 characters, all integer literals, all finite floats, all schemas with such an argument", "why_tests_cant": "Rounding errors occur at isolated literals (one float32 in the whole range does not survive the way out and in), which no sample of literals is likely to contain.", "anchors": ["resolver.go: bindInputToGoValue, cases ValueInt and ValueFloat", "helpers/encodeFloat.go: FloatToJSON", "bytecode/bytecode.go: number literals"]}
{"id": "C53", "title": "Traces record what was resolved and change nothing else", "statement": "With tracing the data, the errors and the effects of a request are the same as without. The trace is a JSON text with one entry per resolved field, inner fields first, giving the path of the field, its name, the type it belongs to and its own type; all spans lie between the end of parsing and the end of the request, and durations are not negative. The trace of a text for which nothing is executed has no entries.", "quantifier": "all schemas, data, resolvers, texts (accepted or not) and clocks that do not go back", "why_tests_cant": "Times differ from run to run, so tests at most look whether a trace is there; which entries occur depends on lists, aliases, fragments, errors and null values in every combination.", "anchors": ["apollo_tracing.go", "resolver.go: Resolve, resolveField, startTrace, finishTrace, GetPath", "parse.go: objToQlTypeName"]}
{"id": "C54", "title": "The tester tells what the Go program is", "statement": "GetTypeByName, HasType, TypeKind, HasFields and OnlyHasFields of the package tester agree with the Go program: a type is found exactly if the schema has a type of that name, its kind is the GraphQL kind of the Go type, HasFields is content exactly if the type is a struct or interface that exposes all the fields, OnlyHasFields exactly if it exposes these and no others, and otherwise the error says what is wrong.", "quantifier": "all programs, their schemas, all names and lists of field names, after any requests before", "why_tests_cant": "The functions go through the parser of queries, variables, introspection with its caches, the interpreter and JSON; tests use a few names of one schema and mostly a fresh one.", "anchors": ["tester/tester.go", "inject_schema.go: getTypes, getAllQLTypes", "resolver.go: Resolve"]}
{"id": "C55", "title": "The diff in a failed assertion is right", "statement": "For any two lists of lines the differ of the assert package (difflib.go) finds runs of equal lines that are in order, never empty and never touching; its ranges lead from the first list to the second; its groups hold all changes with no more context than asked for; the printed unified diff, read back the way patch reads it, turns the expected text into the actual one and is empty exactly if the two are equal. The run found by findLongestMatch is the longest, then the earliest in a, then in b; no line is removed and added again in one place.", "quantifier": "all lists of lines, all windows, all numbers of context lines", "why_tests_cant": "The search, the joining of runs and the cutting into groups have many boundary cases (first and last range, ranges of one or no line, popular lines from 200 lines on) that a handful of examples does not reach.", "anchors": ["assert/difflib/difflib.go", "assert/assert.go: diff"]}
{"id": "C56", "title": "Responses have the types that the schema announces", "statement": "For every schema built by Parse and every request, the data of the response conforms to the GraphQL schema of the Go program: an object has only members that were asked for, each with a value of the announced type; a scalar is written as its scalar type says, an enum value is one of the registered names, a list is a list of values of its element type, an interface gives an object of one of the types that implement it; and if no error is reported there is no null and no gap at a non-null type.", "quantifier": "all Go programs, all parsed schemas, all queries, variables and values of the announced Go types", "why_tests_cant": "The type of a value in a response is decided by reflection at run time from nested entries of the schema (pointers, lists, methods, interfaces, IDs, enums); tests see a few combinations, while clients rely on the announced types for every query.", "anchors": ["resolver.go: resolveSelectionSet, resolveField, resolveFieldDataValue, valueToJSON", "parse.go", "inject_schema.go: objToQLType"]}
{"id": "C57", "title": "Introspection does not panic", "statement": "No request to a parsed schema panics because of introspection: for every Go program, after any requests to the schema and its copies, a request that asks __schema or __type (alone or among other fields, in any combination) gives a response, and every value that the functions of introspection return has the Go type that is declared for it in grahql_types.go.", "quantifier": "all Go programs with the types of yarql, all parsed schemas, all earlier requests, all requests, all schema copies", "why_tests_cant": "The functions of introspection are closures over lazily filled caches and over tables of the parsed schema; a nil dereference or an index out of range would depend on which types the program has and on what was asked before, in which order and from which copy.", "anchors": ["inject_schema.go", "grahql_types.go", "resolver.go"]}
{"id": "C58", "title": "Introspection tells which directives can be used where", "statement": "After any registrations of directives that succeeded, __schema lists a directive of a name for a place (FIELD, FRAGMENT_SPREAD, INLINE_FRAGMENT) exactly if one of that name was registered for it, with its description and without others; and exactly those can be used: a selection with a directive that is not told for its place is reported as an error.", "quantifier": "all sequences of registrations, all Go programs, all orders of the map of places, all requests", "why_tests_cant": "The list is put together from a table by place with a rule that leaves out entries of one name that share a place; whether it is complete depends on the registrations and on the order in which Go walks over a map.", "anchors": ["inject_schema.go", "directives.go", "parse.go", "resolver.go"]}
{"id": "C59", "title": "Registered implementations and names", "statement": "A call of Implements succeeds exactly if it is given a pointer to an interface and a struct, both declared in packages, and the struct has every method of the interface; after any such calls, in any order and with repetitions, introspection tells for an interface exactly the structs that were registered for it, and for a struct exactly the interfaces. TypeRename gives a struct the new name, without the white space around it, and leaves all other names, or panics for what is no named struct or no name of GraphQL.", "quantifier": "all Go programs, all sequences of calls of Implements, all calls of TypeRename, all parsed schemas, all earlier requests", "why_tests_cant": "Both keep global tables by the name of a type without its package; that the two tables of Implements agree after any sequence of calls, and that a name cannot reach another type, are facts about all sequences and all programs. The tests register a few types of one package, in one order.", "anchors": ["interfaces.go:19-73", "type_rename.go:13-39", "parse.go:378-401", "parse.go:452-503"]}
{"id": "C60", "title": "The bytecode says which document was read", "statement": "Two accepted query texts are compiled to the same bytes exactly if they denote the same document: the bytecode, shorter than 4 GiB, loses nothing and confuses nothing, and then the recorded places of the fragments and of the selected operation are the same as well.", "quantifier": "all pairs of accepted query texts, all operation names asked for", "why_tests_cant": "A confusion needs two texts whose bytes coincide although the documents differ, for instance through a name that is ended by a zero byte, a length, or the first byte of the next instruction; tests compare single texts with expected bytes and never look for a second text.", "anchors": ["bytecode/bytecode.go:60-780", "bytecode/bytecode_instructions.go:46-237"]}
{"id": "C61", "title": "What a test of the parser tells", "statement": "A test newParseQueryAndExpectResult(query, description.toBytes()) passes exactly if the query denotes the document that the description says: the encoder of the tests, which fills in lengths afterwards, gives the bytecode of the described document, and no other text has these bytes.", "quantifier": "all descriptions (testOperator, testFragment with any fields, values, directives, arguments), all query texts", "why_tests_cant": "The test encoder is the yardstick of all parser tests; nothing tests the yardstick itself, and its mistakes show only for descriptions that no test uses.", "anchors": ["bytecode/testing_framework.go:8-286", "bytecode/bytecode_test.go:13-46"]}
{"id": "C62", "title": "Failure reports of the assertions", "statement": "A failed assertion reports, in two aligned columns, where it failed, what failed, the name of the test and the message of the user; every line of every text is shown, below the first one, in the right column. Equal shows the expected and the actual value, each on a line of its own and cut when it is long. The message of the user is formatted with its arguments, and left out if there is none.", "quantifier": "all labels, failure texts, test names, messages with any arguments, values of any length and types with any names", "why_tests_cant": "A report is read by people only when a test fails; nothing tests the reports themselves, and what goes missing shows only with very long lines or with the assertions that hand the message on wrongly.", "anchors": ["assert/assert.go:152-302", "assert/assertion_compare.go:312-380"]}
{"id": "C63", "title": "Order and difference assertions", "statement": "Greater, GreaterOrEqual, Less, LessOrEqual pass exactly if the two values are of one kind and in that order: integers and floats by their value, strings byte by byte; Positive and Negative compare with zero. InDelta passes exactly if the two numbers differ by at most delta, InDeltaSlice and InEpsilonSlice if this holds for all elements of two slices of one length.", "quantifier": "all values of all kinds, all 2^64 floats, all strings, all deltas, slices of all lengths", "why_tests_cant": "A wrong assertion makes tests pass that should fail, so no test notices it; the wrong cases are single values such as NaN, integers beyond 2^53, or slices of different lengths.", "anchors": ["assert/assertion_compare.go:35-390", "assert/assert.go:487-569", "assert/assert.go:652-670"]}
{"id": "C64", "title": "What a copy of a schema shares with it", "statement": "Schema.Copy makes a schema with the same content at every depth, all of whose records, maps and slices that hold data of the schema or of its requests are new: a copy shares with the original, and with other copies, only byte arrays and Go values that are never written. So copies can be used concurrently.", "quantifier": "all schemas: any types, inputs, methods, interfaces, enums and directives, nested to any depth", "why_tests_cant": "A record that is shared by mistake shows only when two requests run at the same time and write to it, and only for the part of the schema it belongs to; a forgotten field shows only in the feature that reads it.", "anchors": ["copy_schema.go:13-291", "resolver.go:21-48", "parse.go:43-201"]}
{"id": "C65", "title": "Equality, nil, emptiness, panics and relative errors in assertions", "statement": "Equal passes exactly for two values that are equal throughout (and are no functions), NotEqual exactly for two that are not; Nil and Empty pass exactly for nil and empty values, NotNil and NotEmpty exactly for the others; Panics passes exactly for functions that panic; InDeltaMapValues passes exactly for maps with the same keys and near values; InEpsilon passes exactly if the relative error is at most epsilon.", "quantifier": "all Go values of any type, nested to any depth; all maps; all floats", "why_tests_cant": "The assertions are what the tests of this project rely on: an assertion that passes too often hides a bug in every test that uses it and cannot be noticed by these tests.", "anchors": ["assert/assert.go:29-70", "assert/assert.go:243-275", "assert/assert.go:304-485", "assert/assert.go:571-649", "assert/assert.go:803-808"]}
{"id": "C66", "title": "Traces of failures, errors, zero values and JSON in assertions", "statement": "A failure shows the frames of the failing test from the assertion to the test function. ErrorIs passes exactly if the error or one it wraps matches, NotErrorIs exactly otherwise, ErrorAs finds the outermost error that fits; failures show the whole chain. NoError, Error and EqualError pass exactly for no error, an error, an error with the text. Zero passes exactly for zero values and NotZero for the others. JSONEq passes exactly for two JSON texts that mean the same.", "quantifier": "all call stacks, all chains of errors, all Go values, all pairs of texts", "why_tests_cant": "The assertions are what the tests of this project rely on; an assertion that passes too often is not noticed by them. Stacks, chains and JSON values have no bound on their size.", "anchors": ["assert/assert.go:76-150", "assert/assert.go:682-755", "assert/assert.go:810-877"]}
{"id": "C67", "title": "What a failed Equal reports", "statement": "Equal never panics. If it fails, the report shows both values, with their types if these differ, no longer than 65436 bytes each, so that no line is too long for go test; and for two values of one type that are structs, arrays, maps, slices or strings, or pointers to such values, a diff that leads from the lines of the expected value to the lines of the actual one.", "quantifier": "all pairs of Go values; all texts fmt makes of them", "why_tests_cant": "The report is only seen when a test fails, so no passing test looks at it; which report is made depends on the types, kinds and sizes of both values.", "anchors": ["assert/assert.go:243-302", "assert/assert.go:757-801"]}
