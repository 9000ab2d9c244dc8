{"id": "C01", "title": "Identifier normalisation is idempotent and canonical", "statement": "Creating an identifier from text and creating it again from the resulting text gives the same identifier; the resulting text contains no upper-case ASCII letter, no space, no hyphen, no leading, trailing or doubled underscore.", "quantifier": "every (ASCII) string passed to EntityId::new / FieldId::new / EntityType::new", "why_tests_cant": "an unbounded set of strings mixing cases, digits and separators; unit tests only try five spellings", "anchors": ["firm_core/src/id.rs: typed_string_id!::new"]}
{"id": "C02", "title": "Composite ids split back into their parts and do not collide across types", "statement": "For any type and id that are well-formed snake_case identifiers, splitting the composite id gives back exactly the type and the id, so two (type,id) pairs share a composite id only if they are the same pair. For general DSL identifiers, two declarations collide exactly when their normal forms agree.", "quantifier": "every pair of entity type and id strings", "why_tests_cant": "injectivity quantifies over all pairs of pairs of strings", "anchors": ["firm_core/src/id.rs: compose_entity_id, decompose_entity_id"]}
{"id": "C03", "title": "A reference resolves to the declaration with the same spelling", "statement": "If a workspace declares an entity with some type and id text, then a reference written with that same type and id text denotes exactly that entity's id, whatever the spelling.", "quantifier": "every entity type and id text, every field", "why_tests_cant": "spelling variants are unbounded and two code paths (declaration and reference) must agree on all of them", "anchors": ["firm_core/src/id.rs: compose_entity_id", "firm_lang/src/convert/to_entity.rs"]}
{"id": "C04", "title": "Every declared field can be queried by its own name", "statement": "A query that names a field exactly as it is declared in the DSL (and a query that names an entity type exactly as declared) sees that field (those entities).", "quantifier": "every identifier the query grammar and DSL accept", "why_tests_cant": "holds or fails depending on the spelling of the name; tests only use lower-case digit-free names", "anchors": ["firm_lang/src/convert/to_query.rs: convert_field", "firm_lang/src/convert/to_entity.rs", "firm_core/src/id.rs: FieldId::new"]}
{"id": "C05", "title": "The graph behaves as a map from id to the first entity added", "statement": "After any sequence of add operations, looking up an id returns the first entity that was added with that id and nothing else; adding an entity whose id is already present reports an error naming that id and changes no observable result.", "quantifier": "every finite sequence of add_entity / add_entities / build / clear operations and every id", "why_tests_cant": "histories are unbounded", "anchors": ["firm_core/src/graph/mod.rs: add_entity, add_entities, clear, build", "firm_core/src/graph/access.rs: get_entity"]}
{"id": "C06", "title": "Building links exactly the resolvable references", "statement": "After build, there is a relationship from entity a to entity b via field f exactly when some field f of a holds, directly or at any depth inside lists, a reference to b (or to a field of b) and b is in the graph; previously existing relationships do not survive; building twice changes nothing.", "quantifier": "every graph state reachable by any sequence of operations, every nesting depth of list values", "why_tests_cant": "list nesting depth and graph size are unbounded", "anchors": ["firm_core/src/graph/mod.rs: build, collect_relationships_from_field"]}
{"id": "C07", "title": "get_related returns exactly the neighbours, sorted and without duplicates", "statement": "For an entity in a built graph, get_related returns in strictly increasing id order exactly the entities that it references (outgoing), that reference it (incoming), or either (no direction); for an unknown id it returns nothing at all rather than an empty list. b is an outgoing neighbour of a iff a is an incoming neighbour of b.", "quantifier": "every graph reachable by any operation sequence, every id, every direction", "why_tests_cant": "quantifies over all graphs", "anchors": ["firm_core/src/graph/access.rs: get_related"]}
{"id": "C08", "title": "Field references resolve by following the chain, always terminate, never loop", "statement": "Resolving a field reference either returns the first value on the reference chain that is not itself a field reference, or an error; it never returns a field reference, a chain of at most ten hops that ends in a value is resolved to that value, a cyclic chain always produces an error.", "quantifier": "every graph, every chain length and cycle length", "why_tests_cant": "chains and cycles of every length", "anchors": ["firm_core/src/graph/access.rs: resolve_field_reference, search_field_reference"]}
{"id": "C09", "title": "Listing by type partitions the entities", "statement": "Every entity in the graph appears exactly once in the list of its own type and in no other type's list, in the order in which it was added; 'from *' returns every entity exactly once.", "quantifier": "every sequence of additions and every hash iteration order", "why_tests_cant": "histories and hash seeds are unbounded", "anchors": ["firm_core/src/graph/access.rs: list_by_type, get_all_entity_types", "firm_core/src/graph/query/types.rs: Query::execute"]}
{"id": "C10", "title": "where keeps exactly the matching entities, in order", "statement": "A where step keeps exactly the input entities that satisfy the condition, each as often as before and in the same order, or fails if evaluating the condition fails on one of the inputs; 'where A and B' gives the same entities as 'where A | where B' whenever the former succeeds.", "quantifier": "every entity list and every condition", "why_tests_cant": "all data sets and all conditions", "anchors": ["firm_core/src/graph/query/types.rs: Query::execute", "firm_core/src/graph/query/filter/mod.rs: CompoundFilterCondition::matches"]}
{"id": "C11", "title": "Comparison operators are mutually consistent", "statement": "On a present field, == and != are complementary, exactly one of <, ==, > holds, >= is the union of > and ==, <= is the union of < and ==.", "quantifier": "every field value and filter value of a comparable type (integer, boolean, string, date, float, currency)", "why_tests_cant": "the domain includes all 2^64 integers, NaN, infinities, mixed currencies and absent fields", "anchors": ["firm_core/src/graph/query/filter/numeric.rs", "firm_core/src/graph/query/filter/currency.rs", "firm_core/src/graph/query/filter/string.rs", "firm_core/src/graph/query/filter/boolean.rs", "firm_core/src/graph/query/filter/datetime.rs", "firm_core/src/graph/query/filter/mod.rs: matches_field"]}
{"id": "C12", "title": "limit keeps a prefix and composes as minimum", "statement": "'limit n' returns the first n entities (all of them if fewer); 'limit n | limit m' equals 'limit min(n,m)'; where and limit never introduce entities that were not in their input.", "quantifier": "every n, m and every input list", "why_tests_cant": "unbounded lists and limits", "anchors": ["firm_core/src/graph/query/types.rs: Query::execute"]}
{"id": "C13", "title": "order produces the stable sorted permutation", "statement": "order returns the same entities, rearranged so that they are non-decreasing (non-increasing for desc) in the chosen key, entities with equal keys staying in their previous relative order, entities missing the field coming last when ascending; in particular the comparison used is a consistent total preorder.", "quantifier": "every list of entities, every field or metadata key, every mix of value types", "why_tests_cant": "sorting with an inconsistent comparison is unspecified (may even panic); consistency is a statement over all triples of values", "anchors": ["firm_core/src/graph/query/order.rs: compare_entities_by_field, compare_field_values", "firm_core/src/graph/query/types.rs: Query::execute"]}
{"id": "C14", "title": "related(d) is bounded reachability", "statement": "related(d) with d >= 1 returns, each exactly once, the entities reachable from the inputs in at most min(d,5) relationship hops in either direction (inputs included), restricted to the requested type; the set does not depend on hash iteration order; a larger d never returns fewer entities.", "quantifier": "every graph, every start set, every d, every type filter, every hash iteration order", "why_tests_cant": "graphs and degrees are unbounded", "anchors": ["firm_core/src/graph/query/related.rs: get_related_entities"]}
{"id": "C15", "title": "count and select report on exactly the result set", "statement": "count equals the number of result entities (with a field: of those having the field); select yields one row per entity in order and one cell per requested column, holding exactly that entity's value or nothing if absent.", "quantifier": "every entity list and column list", "why_tests_cant": "unbounded lists", "anchors": ["firm_core/src/graph/query/aggregation/count.rs", "firm_core/src/graph/query/aggregation/select.rs"]}
{"id": "C16", "title": "sum is the exact total", "statement": "Summing an integer (currency) field returns the exact arithmetic total of the present values irrespective of the order of the entities; mixing currencies, or currencies with plain numbers, is an error.", "quantifier": "every list of entities, including totals outside the 64-bit range and every permutation", "why_tests_cant": "overflow and order-dependence need adversarial magnitudes", "anchors": ["firm_core/src/graph/query/aggregation/sum.rs", "firm_core/src/graph/query/aggregation/mod.rs: classify_numeric_type, collect_numeric_values"]}
{"id": "C17", "title": "average and median are consistent with sum's rules", "statement": "average and median skip entities missing the field, fail on an empty set and on non-numeric values, treat currencies as sum does, median lies between the smallest and largest value, and neither depends on the order of the entities.", "quantifier": "every list of entities and every permutation", "why_tests_cant": "floating-point behaviour at extremes and mixed units", "anchors": ["firm_core/src/graph/query/aggregation/average.rs", "firm_core/src/graph/query/aggregation/median.rs"]}
{"id": "C18", "title": "Query results do not depend on hash seeds", "statement": "Two runs of the same query on the same graph return the same entities up to order; if the query orders by @id before any limit, the returned list is identical.", "quantifier": "every query, every graph, every pair of hash iteration orders", "why_tests_cant": "hash seeds are random per process", "anchors": ["firm_core/src/graph/query/types.rs: Query::execute", "firm_core/src/graph/query/related.rs: get_related_entities"]}
{"id": "C19", "title": "Every documented operator is usable", "statement": "For every operator of the query language there is a field type on which it evaluates without error; evaluating an operator on a present field errs exactly in the documented type/operator combinations.", "quantifier": "every operator, field value and filter value", "why_tests_cant": "a full cross product of operators, value types and values", "anchors": ["firm_core/src/graph/query/filter/"]}
{"id": "C20", "title": "Date and date-time literals in queries are compared by calendar date / instant", "statement": "A query literal YYYY-MM-DD compares against the calendar date of the field in the field's own offset; a literal with a time part compares instants.", "quantifier": "every date-time value, offset, operator, literal accepted by the query grammar", "why_tests_cant": "all dates, times and offsets", "anchors": ["firm_core/src/graph/query/filter/datetime.rs: compare_datetime", "firm_lang/src/parser/query/grammar.pest: datetime"]}
{"id": "C21", "title": "Query text denotes the query it spells", "statement": "Writing out any query in the query language, with any amount of white space between tokens, and parsing it yields exactly that query: same selector, operations in order, fields, operators, values, aggregation.", "quantifier": "every query expressible in the language", "why_tests_cant": "the language is infinite and the grammar is ordered-choice with implicit white space", "anchors": ["firm_lang/src/parser/query/grammar.pest", "firm_lang/src/parser/query/parser.rs: parse_query"]}
{"id": "C22", "title": "Numeric literals in queries denote the number written", "statement": "An integer literal in a query matches an integer field exactly when the field holds that integer.", "quantifier": "every 64-bit integer", "why_tests_cant": "needs integers beyond 2^53", "anchors": ["firm_lang/src/convert/to_query.rs: convert_value", "firm_lang/src/parser/query/parser.rs"]}
{"id": "C23", "title": "String literals in queries denote the text between the quotes", "statement": "A quoted string in a query denotes exactly the characters between its quotes.", "quantifier": "every string without the delimiting quote", "why_tests_cant": "white-space handling at the edges of arbitrary strings", "anchors": ["firm_lang/src/parser/query/grammar.pest: string, inner_string_double"]}
{"id": "C24", "title": "Numbers, booleans and references survive write and read back", "statement": "Generating DSL text for a boolean, integer, float or reference value and parsing that text yields the same value.", "quantifier": "every boolean, 64-bit integer, reference with identifier parts", "why_tests_cant": "2^64 integers, unbounded identifiers", "anchors": ["firm_lang/src/generate/from_value.rs", "firm_lang/src/parser/dsl/parsed_value.rs"]}
{"id": "C25", "title": "Strings survive write and read back", "statement": "Generating DSL text for a string value and parsing that text yields the same string.", "quantifier": "every string", "why_tests_cant": "quotes, newlines, indentation and trailing white space at arbitrary positions", "anchors": ["firm_lang/src/generate/from_value.rs: generate_string", "firm_lang/src/parser/dsl/parsed_value.rs: parse_string, trim_common_indentation"]}
{"id": "C26", "title": "Date-times survive write and read back", "statement": "Generating DSL text for a date-time and parsing that text yields the same instant.", "quantifier": "every date-time and every UTC offset", "why_tests_cant": "all offsets (including fractional hours) and seconds", "anchors": ["firm_lang/src/generate/from_value.rs: generate_datetime", "firm_lang/src/parser/dsl/parsed_value.rs: parse_datetime, parse_utc_offset"]}
{"id": "C27", "title": "Currency amounts survive write and read back", "statement": "Generating DSL text for a currency value and parsing that text yields the same amount and currency.", "quantifier": "every decimal amount and currency code", "why_tests_cant": "96-bit mantissas and 29 scales", "anchors": ["firm_lang/src/generate/from_value.rs", "firm_lang/src/parser/dsl/parsed_value.rs: parse_currency"]}
{"id": "C28", "title": "Enum and path values survive write and read back", "statement": "Generating DSL text for an enum value (path) and parsing that text yields the same value.", "quantifier": "every enum text / path text", "why_tests_cant": "embedded quotes and prefixes at arbitrary positions", "anchors": ["firm_lang/src/generate/from_value.rs: generate_enum, generate_path", "firm_lang/src/parser/dsl/parsed_value.rs: parse_enum, parse_path"]}
{"id": "C29", "title": "Lists are accepted exactly when homogeneous", "statement": "A list literal is accepted exactly when all its items have the same kind, and then the items are preserved in order; otherwise the error names the first offending index and the two kinds.", "quantifier": "every list of values of every length", "why_tests_cant": "unbounded lists", "anchors": ["firm_lang/src/parser/dsl/parsed_value.rs: parse_list_from_vec"]}
{"id": "C30", "title": "Reading a multi-line string never crashes and removes only common indentation", "statement": "Parsing a multi-line string terminates without panic; the result is the text with the common leading indentation of its non-blank lines removed and outer white space trimmed, so relative indentation is preserved.", "quantifier": "every text between triple quotes", "why_tests_cant": "byte-offset slicing of arbitrary UTF-8 text", "anchors": ["firm_lang/src/parser/dsl/parsed_value.rs: trim_common_indentation"]}
{"id": "C31", "title": "Validation accepts exactly the conforming entities", "statement": "An entity validates against a schema exactly when it has the schema's type, every required field is present, every present schema field has the declared type, and every enum value is (ignoring case and outer white space) one of the allowed values; otherwise there is one error per violation, independently of hash iteration order.", "quantifier": "every schema, every entity, every hash iteration order", "why_tests_cant": "all schemas and entities", "anchors": ["firm_core/src/schema/validation.rs: EntitySchema::validate", "firm_core/src/schema/mod.rs"]}
{"id": "C32", "title": "Schema fields keep their declaration order and survive write and read back", "statement": "A schema read from the DSL lists its fields in declaration order; writing the schema out and reading it back yields the same fields, types, required flags, allowed values and order.", "quantifier": "every list of distinctly named field declarations, every hash iteration order", "why_tests_cant": "field sets of any size and random hash order", "anchors": ["firm_lang/src/convert/to_schema.rs", "firm_lang/src/generate/from_schema.rs", "firm_core/src/schema/mod.rs: ordered_fields"]}
{"id": "C33", "title": "A successful build contains exactly the declared, valid entities", "statement": "If building a workspace succeeds then the entities are exactly those declared in the files, each conforming to the unique schema of its type, and the schemas are exactly those declared, no two for the same type.", "quantifier": "every set of source files", "why_tests_cant": "all workspaces", "anchors": ["firm_lang/src/workspace/build.rs: build_with_progress"]}
{"id": "C34", "title": "Building does not depend on the order in which files are visited", "statement": "Whether the build succeeds, and the collections of entities and schemas it returns (up to order), do not depend on the order in which files are visited.", "quantifier": "every set of files and every two visiting orders", "why_tests_cant": "hash order is random per process", "anchors": ["firm_lang/src/workspace/build.rs: build_with_progress", "firm_lang/src/workspace/mod.rs"]}
{"id": "C35", "title": "A rejected edit leaves no trace", "statement": "When write_source, replace_source or delete_source is rejected (syntax error, invalid path, or the workspace would no longer build and force is off), every file has the content it had before and the entities, schemas and graph served by the server are unchanged.", "quantifier": "every disk state, every server state, every request", "why_tests_cant": "all file systems and requests, including files that are not valid text", "anchors": ["firm_mcp/src/server.rs: write_source, delete_source, replace_source, rebuild", "firm_mcp/src/tools/write_source.rs", "firm_mcp/src/tools/delete_source.rs"]}
{"id": "C36", "title": "An accepted edit is on disk and in memory", "statement": "When a write, replace or delete is accepted with a valid workspace, the named file has exactly the requested content (is gone), all other files are unchanged, and the server's entities, schemas and graph are those of the files on disk.", "quantifier": "every disk state and request; every sequence of requests", "why_tests_cant": "histories are unbounded", "anchors": ["firm_mcp/src/server.rs: write_source, delete_source, replace_source, add_entity, rebuild"]}
{"id": "C37", "title": "Edits stay inside the workspace", "statement": "No request to read, write, replace, delete or add changes or reveals a file that is not inside the workspace directory.", "quantifier": "every path argument, every directory and symbolic-link layout", "why_tests_cant": "all path strings and link structures", "anchors": ["firm_mcp/src/resources.rs: to_absolute_path, write_source_file, read_source_file", "firm_mcp/src/tools/add_entity.rs: execute"]}
{"id": "C38", "title": "Replacing text replaces exactly the occurrences", "statement": "replace_source succeeds exactly when the old text occurs once (or at least once with replace-all) and then the new content is the old content with exactly those occurrences substituted and everything else untouched.", "quantifier": "every content, old text and new text", "why_tests_cant": "overlapping and repeated occurrences in arbitrary strings", "anchors": ["firm_mcp/src/tools/replace_source.rs: execute"]}
{"id": "C39", "title": "Source URIs identify files", "statement": "The URI of a path parses back to that path, and any URI that parses is the URI of the path it yields.", "quantifier": "every path string", "why_tests_cant": "unbounded strings", "anchors": ["firm_mcp/src/resources.rs: source_file_uri, parse_source_uri"]}
{"id": "C40", "title": "Search reports exactly the first matching lines", "statement": "search_source reports exactly the lines that contain the query ignoring case, in path and line order, with correct line numbers, up to 50, and says it is truncated exactly when more exist.", "quantifier": "every set of files and query", "why_tests_cant": "unbounded files", "anchors": ["firm_mcp/src/tools/search_source.rs"]}
{"id": "C41", "title": "Concurrent edits do not lose acknowledged writes", "statement": "When two write requests run concurrently, after both have completed every write that was acknowledged as successful is what the disk holds for that file unless a later acknowledged write replaced it, and the served state is that of the disk.", "quantifier": "every interleaving of the steps of two requests", "why_tests_cant": "schedules", "anchors": ["firm_mcp/src/server.rs: write_source, rebuild"]}
{"id": "C42", "title": "A crash while saving the graph never loses the last good graph", "statement": "If the process stops at any point while saving the built graph, then either the current or the backup file still holds a complete, previously saved graph (or the new one).", "quantifier": "every crash point, including partial writes, and every number of consecutive crashes", "why_tests_cant": "crash points", "anchors": ["firm_cli/src/files.rs: save_graph_with_backup, load_current_graph"]}
{"id": "C43", "title": "Generated entity ids are fresh", "statement": "The id proposed for a new entity is not already used by an entity of that type; the id made from a name is read back unchanged and has the letters and digits of the name, in their order and in lower case.", "quantifier": "every graph and every proposed id", "why_tests_cant": "graphs with arbitrarily many similar ids", "anchors": ["firm_cli/src/commands/add.rs: compute_unique_entity_id, sanitize_entity_id"]}
{"id": "C44", "title": "An entity added through the tool server is the entity that is served", "statement": "When add_entity succeeds, the entity's type, id and fields read back from the file it was appended to are those requested, the rest of that file is unchanged, and an id already present is refused.", "quantifier": "every schema, existing file content and requested fields", "why_tests_cant": "all field values, including offsets and quotes", "anchors": ["firm_mcp/src/tools/add_entity.rs: execute, json_to_field_value", "firm_mcp/src/server.rs: add_entity"]}
{"id": "C45", "title": "Text and list conditions mean what they say", "statement": "On text fields contains, starts_with and ends_with hold exactly when the literal occurs inside, at the start or at the end of the field, ignoring letter case. On list fields contains holds exactly when some item matches the literal (a text item: contains it; any other item: equals it), and == holds exactly when the lists have the same length and equal items in order.", "quantifier": "every text, every list length, every item and literal", "why_tests_cant": "texts and lists are unbounded", "anchors": ["firm_core/src/graph/query/filter/string.rs: compare_string", "firm_core/src/graph/query/filter/list.rs: compare_list, compare_list_item"]}
{"id": "C46", "title": "Time zones outside a day are rejected", "statement": "In a date-time literal the offset after UTC is accepted exactly when it is less than 24 hours in absolute value, and then means that many hours; any other integer is rejected with an error and never crashes the reader or is taken for another offset.", "quantifier": "every integer offset, with and without overflow checks", "why_tests_cant": "offsets are unbounded and the arithmetic depends on the build mode", "anchors": ["firm_lang/src/parser/dsl/parsed_value.rs: parse_datetime, parse_utc_offset"]}
{"id": "C47", "title": "Entities survive write and read back", "statement": "Generating DSL text for an entity and reading it back yields the same type, id and fields in the same order.", "quantifier": "every entity with any number of fields, every generator option, every file path", "why_tests_cant": "entities, values and nesting are unbounded", "anchors": ["firm_lang/src/generate/from_entity.rs", "firm_lang/src/convert/to_entity.rs"]}
{"id": "C48", "title": "A workspace loads exactly when it builds and its ids are distinct", "statement": "Loading a workspace into a graph succeeds exactly when building succeeds and no two declared entities have the same id; then looking an id up yields exactly the entity declared with it, and nothing that is not declared.", "quantifier": "every set of source files, every iteration order", "why_tests_cant": "workspaces are unbounded and hash iteration orders vary from run to run", "anchors": ["firm_lang/src/workspace/build.rs: build_with_progress", "firm_core/src/graph/mod.rs: add_entities, build", "firm_mcp/src/server.rs: rebuild"]}
{"id": "C49", "title": "Finding the source of an entity or schema", "statement": "find_source yields a file that declares the entity (schema) asked for, and fails only if no file does; in particular an entity that is served can be found by the type and id it is served under.", "quantifier": "every set of files, every type, id and schema name", "why_tests_cant": "files and spellings are unbounded", "anchors": ["firm_lang/src/workspace/mod.rs: find_entity_source, find_schema_source", "firm_mcp/src/tools/find_source.rs"]}
{"id": "C50", "title": "A schema governs the entities declared with its name", "statement": "If a workspace declares a schema with some name, then the entities whose type is written with that same name are validated against that schema.", "quantifier": "every schema name", "why_tests_cant": "names are unbounded and normalised differently on the two sides", "anchors": ["firm_lang/src/convert/to_schema.rs", "firm_lang/src/convert/to_entity.rs", "firm_lang/src/workspace/build.rs"]}
{"id": "C51", "title": "An accepted edit leaves no dangling reference", "statement": "Whatever is served links only entities that are served; and after an accepted edit no served entity refers to an entity that is not served.", "quantifier": "every workspace, every accepted edit", "why_tests_cant": "reference structures are unbounded", "anchors": ["firm_core/src/graph/mod.rs: build", "firm_mcp/src/server.rs: delete_source, rebuild"]}
{"id": "C52", "title": "Loading a workspace reads every source file in it and no other", "statement": "Loading a directory reads exactly the files under it, at any depth, whose name ends in .firm, each once and under the path relative to the workspace, and succeeds exactly when all of them are text that parses.", "quantifier": "every directory tree without symbolic links, of any depth and width", "why_tests_cant": "trees are unbounded", "anchors": ["firm_lang/src/workspace/io.rs: load_directory, load_file"]}
{"id": "C53", "title": "The source tree shows every source file once", "statement": "source_tree lists exactly the source files of the workspace, each once under its directory, directories and the files in each in order.", "quantifier": "every directory tree without symbolic links", "why_tests_cant": "trees are unbounded and file maps are hashed", "anchors": ["firm_mcp/src/tools/source_tree.rs: execute"]}
{"id": "C54", "title": "The list, get and related tools agree on the entities", "statement": "get finds exactly the entities of the loaded workspace by type and id; list names exactly the ids of the entities of a type; related names exactly the neighbours of an entity, each once and in order; whatever list shows, get finds.", "quantifier": "every loaded workspace, type and id", "why_tests_cant": "workspaces are unbounded", "anchors": ["firm_mcp/src/tools/list.rs", "firm_mcp/src/tools/get.rs", "firm_mcp/src/tools/related.rs"]}
{"id": "C55", "title": "A path given when adding an entity counts from the workspace root", "statement": "A relative path given for a path field of a new entity is served as the place it denotes from the workspace root, whatever file of the workspace the entity is written to; an absolute path into the workspace is served as the same place.", "quantifier": "every relative path, every directory depth of the file", "why_tests_cant": "paths and directories are unbounded", "anchors": ["firm_mcp/src/tools/add_entity.rs: json_to_field_value (Path)", "firm_lang/src/convert/to_entity.rs: path handling", "firm_lang/src/parser: parse_path"]}
{"id": "C56", "title": "Saving the graph leaves the workspace as it is", "statement": "Building and saving the graph, however often and wherever a run is interrupted, changes neither what the workspace means nor any file but the two graph files; a build that fails changes nothing, and the graph that is loaded after one that succeeds is the graph of the workspace.", "quantifier": "every workspace, every history of saves with interruptions", "why_tests_cant": "histories and interruption points are unbounded", "anchors": ["firm_cli/src/files.rs: save_graph, load_current_graph", "firm_cli/src/commands/build.rs: build_and_save_graph"]}
{"id": "C57", "title": "The command line answers what the tool server answers", "statement": "get, list, related, query and source on the command line give the answer the tool server gives for the same files, and fail when the workspace does not build; with --cached, entities are answered as they were when a command last built; asking changes no source file.", "quantifier": "every workspace, every question, every history between building and asking", "why_tests_cant": "workspaces, questions and histories are unbounded", "anchors": ["firm_cli/src/main.rs", "firm_cli/src/commands/get.rs, list.rs, related.rs, query.rs, source.rs"]}
{"id": "C58", "title": "An entity added on the command line is the one asked for", "statement": "firm add with flags reads each value as the same text would be read in a source file, appends the block of exactly the entity asked for to the target and changes no other source; if it fails no source changes; the id is not yet used; the entity is served at the next build; and a path given from the current directory leads to the same file from the target's directory.", "quantifier": "every schema, all flags, every workspace", "why_tests_cant": "flags, values and file contents are unbounded", "anchors": ["firm_cli/src/commands/add.rs: add_entity_non_interactive, parse_field_value_from_string, write_dsl"]}
{"id": "C59", "title": "An entity added by answering prompts is the one entered", "statement": "firm add without flags adds exactly the entity the answers enter: answers that are refused leave no trace, an optional field can be skipped, breaking off leaves all sources as they are; the entity satisfies its schema, its references lead to entities and fields there are, its id is new, and after it was added the workspace builds with it and with everything it had before.", "quantifier": "every schema, workspace and sequence of answers", "why_tests_cant": "dialogues, schemas and workspaces are unbounded", "anchors": ["firm_cli/src/commands/add.rs: add_entity_interactive, prompt_required_fields, prompt_optional_fields", "firm_cli/src/commands/field_prompt.rs"]}
{"id": "C60", "title": "Setting up a workspace spoils nothing and gives one that builds", "statement": "firm init touches only its own files in the workspace, removes nothing, and overwrites a file only after an explicit yes; saying no changes nothing; what a .gitignore held stays. In an empty directory it leaves the sixteen schemas, the two entities as named, the .gitignore and the guide, and the workspace builds with exactly these schemas and entities.", "quantifier": "every workspace, every sequence of answers, broken off anywhere", "why_tests_cant": "directories and answers are unbounded, and the command can stop between any two files", "anchors": ["firm_cli/src/commands/init.rs: init_workspace, create_default_schemas, create_or_update_gitignore, create_default_entities", "firm_lang/src/defaults.rs"]}
{"id": "C61", "title": "A saved graph is read back whole", "statement": "Writing a graph as text and reading the text gives the same entities, relationships and indices; a graph that was read gives the answers of the one that was written to every look-up, listing, related question, reference and query. Holds of every graph whose values the text can carry, whatever the order in which the hash maps are walked; it fails for floats of many digits, floats that are not finite and lists nested too deep.", "quantifier": "every history of graph operations, every value, every walk order", "why_tests_cant": "graphs, texts and nesting are unbounded", "anchors": ["firm_core/src/graph/mod.rs: Serialize, Deserialize", "firm_core/src/field.rs: FieldValue", "firm_core/src/entity.rs: Entity", "firm_cli/src/files.rs: save_graph, load_current_graph"]}
{"id": "C62", "title": "No part of a saved graph can be read", "statement": "No proper beginning of the text of a graph, and no text with anything but white space behind it, is read as a graph; so an interrupted write is noticed when the graph is loaded, and after any history of interrupted saves only graphs that were saved in full can be recovered. Whatever is read as a graph is well-formed JSON and is taken for what it stands for.", "quantifier": "every graph, every cut, every history of saves", "why_tests_cant": "texts, cuts and histories are unbounded", "anchors": ["firm_cli/src/files.rs: save_graph, load_current_graph", "firm_core/src/graph/mod.rs: Deserialize"]}
{"id": "C63", "title": "A source text has one reading", "statement": "A text in the documented syntax declares one list of schemas and one list of entities, in the order in which they are written; two texts, one after the other, declare what the first declares and then what the second declares, if the first ends in a line feed. Without the line feed this fails (the second text can become part of a comment).", "quantifier": "every text in the documented syntax", "why_tests_cant": "texts, nesting and spacing are unbounded", "anchors": ["firm_mcp/src/tools/dsl_reference_content.rs", "firm_lang/src/parser/dsl/source.rs", "firm_lang/src/convert/to_entity.rs", "firm_lang/src/convert/to_schema.rs"]}
{"id": "C64", "title": "What is generated is in the documented syntax", "statement": "The text generated for entities and for schemas is in the documented syntax and declares exactly these; so whatever parser follows the documented syntax, the entities and schemas come back. Holds of names the reference allows and of values the syntax can express; it fails for texts with quotation marks, zones that are not whole hours, floats that are not numbers and references with names that are not identifiers.", "quantifier": "every entity and schema, every parser that follows the documented syntax", "why_tests_cant": "values, field lists and parsers are unbounded", "anchors": ["firm_lang/src/generate/mod.rs: generate_dsl", "firm_lang/src/generate/from_entity.rs", "firm_lang/src/generate/from_field.rs", "firm_lang/src/generate/from_value.rs", "firm_lang/src/generate/from_schema.rs"]}
{"id": "C65", "title": "Additions keep the workspace in the documented syntax", "statement": "In a workspace whose sources are in the documented syntax and with any parser that follows it, adding an entity by the tool, by flags or by prompts and setting up a workspace leave the sources in the documented syntax, and the workspace then has what it had and what was added. It fails for names that give identifiers the reference does not allow (a name that begins with a digit).", "quantifier": "every workspace, every addition, every parser that follows the documented syntax", "why_tests_cant": "workspaces, additions and parsers are unbounded", "anchors": ["firm_mcp/src/tools/add_entity.rs", "firm_cli/src/commands/add.rs", "firm_cli/src/commands/init.rs", "firm_mcp/src/tools/dsl_reference_content.rs"]}
{"id": "C66", "title": "A workspace that is only added to goes on building", "statement": "From firm init in an empty directory, or from any workspace in the documented syntax that builds, after any history of additions by the tool, by flags and by prompts, accepted or refused, of questions and of builds broken off anywhere, the workspace builds, with the schemas it had, the entities it had and exactly those that were added. It fails if an addition makes a directory with the name of a graph file.", "quantifier": "every history of additions, questions and interrupted builds, every parser that follows the documented syntax", "why_tests_cant": "histories, workspaces and crash points are unbounded", "anchors": ["firm_mcp/src/tools/add_entity.rs", "firm_cli/src/commands/add.rs", "firm_cli/src/commands/init.rs", "firm_cli/src/files.rs: save_graph, load_current_graph"]}
{"id": "C67", "title": "What is printed as JSON is what was asked for", "statement": "With --format json, get, list, query and source print one JSON text that, read by any program, gives back the entity, the list of names, the schema (its fields as a map), the result of the aggregation or the path that the server would answer for the same sources: every field, type, value and order of fields. It fails for floats JSON cannot carry (infinite ones are printed as null).", "quantifier": "every entity, schema, list and result with values JSON can carry, every workspace and command", "why_tests_cant": "values, texts and workspaces are unbounded", "anchors": ["firm_cli/src/ui.rs: json_output, list_output", "firm_cli/src/commands/get.rs", "firm_cli/src/commands/list.rs", "firm_cli/src/commands/query.rs", "firm_cli/src/commands/source.rs", "firm_core/src/schema/mod.rs: EntitySchema"]}
{"id": "C68", "title": "What is shown alike is alike", "statement": "Two entities shown by the same text have the same id, the same fields in the same order and the same text for each value; if their fields have the same types, the values are the same. Likewise for answers to queries, lists on the command line, tables with the same columns, and schemas (types, required or not, allowed values). The label of a field is its name again. It fails if a text has a line feed (which makes it look like a further field), if the items of a list have commas, and between values of two types.", "quantifier": "every pair of entities, answers, tables and schemas", "why_tests_cant": "values, texts and lists are unbounded", "anchors": ["firm_core/src/entity.rs: Display", "firm_core/src/field.rs: Display", "firm_core/src/schema/mod.rs: Display", "firm_core/src/graph/query/types.rs: Display", "firm_mcp/src/tools/query.rs", "firm_cli/src/ui.rs: pretty_output_entity_list"]}
{"id": "C69", "title": "The blocks of a file are read from its syntax tree", "statement": "From the syntax tree of a file exactly its schemas and entities are read, in order, with their fields, values and list items in order; comments, brackets and other nodes make no difference. So a parser whose trees have the documented shape makes the program read the documented syntax, and every text in the documented syntax has such a tree. Reading never panics on a tree whose ranges lie in the text between characters, and tells whether the tree has an error.", "quantifier": "every tree, every text in the documented syntax", "why_tests_cant": "trees and texts are unbounded", "anchors": ["firm_lang/src/parser/dsl/parsed_source.rs: ParsedSource", "firm_lang/src/parser/dsl/parsed_entity.rs: ParsedEntity", "firm_lang/src/parser/dsl/parsed_field.rs: ParsedField", "firm_lang/src/parser/dsl/parsed_schema.rs: ParsedSchema", "firm_lang/src/parser/dsl/parsed_schema_field.rs: ParsedSchemaField", "firm_lang/src/parser/dsl/parsed_value.rs: from_node, parse_list_from_node", "firm_lang/src/parser/dsl/parser_utils.rs"]}
{"id": "C70", "title": "Syntax errors do not get in and are reported", "statement": "An edit after which a source would have a syntax error is refused and changes nothing, even if it is forced; after any requests, forced or not, every source is as it was or free of errors. A source that has an error all the same is reported when the workspace is loaded and built.", "quantifier": "every workspace, every history of requests", "why_tests_cant": "texts and histories are unbounded", "anchors": ["firm_mcp/src/tools/write_source.rs", "firm_mcp/src/tools/replace_source.rs", "firm_lang/src/workspace/io.rs: load_file", "firm_lang/src/parser/dsl/parsed_source.rs: has_error"]}
{"id": "C71", "title": "An amount of money asked for in a query is found", "statement": "A condition on a currency field with an amount as the tool writes it sets the fields with that code against exactly that amount: it is found equal to itself, and amounts that differ from it are above or below it as written. The second half holds of amounts of up to five decimals and fewer than 15 digits; the first fails unless the amount is a whole number of halves, quarters, eighths ... (price == 19.99 EUR does not find 19.99 EUR, and price != 19.99 EUR does). Amounts with another code, or the code in small letters, are found by no operator.", "quantifier": "every ordinary amount, every code, every operator, every entity, every conversion of floats to decimals that keeps 24 digits", "why_tests_cant": "amounts, texts and conversions are unbounded", "anchors": ["firm_core/src/graph/query/filter/currency.rs: compare_currency", "firm_lang/src/parser/query/grammar.pest: currency", "firm_lang/src/parser/query/parser.rs", "firm_core/src/graph/query/filter/types.rs: FilterValue"]}
{"id": "C72", "title": "No input crashes the program", "statement": "No workspace, request, command or query ends the program without an answer. This fails, and the statement proved is what the crashes are: reading a value crashes exactly for a text in triple quotes whose common indentation ends inside a character (white space of several bytes), for a zone of too many hours in a build with checked arithmetic, and for a list with such an item; a build, an edit, an addition and a command crash only if such a value is on the disk or among the values given, an edit also if the text to be replaced has a character across its byte 100; a query only in a sum that leaves its range. Without checked arithmetic, with files and requests in ASCII, no request of any history crashes.", "quantifier": "every workspace, every parser, every history of requests, every command, every query", "why_tests_cant": "inputs and histories are unbounded", "anchors": ["firm_lang/src/parser/dsl/parsed_value.rs: parse_string, trim_common_indentation, parse_datetime, parse_utc_offset", "firm_mcp/src/tools/replace_source.rs", "firm_mcp/src/server.rs", "firm_core/src/graph/query/aggregation/sum.rs", "firm_cli/src/commands/add.rs"]}
{"id": "C73", "title": "What is declared in the sources is what queries find", "statement": "In a workspace in the documented syntax that builds, the query from t answers the entities of that type that some file declares, each once, and no others, and count answers how many they are; a type that no file declares cannot be asked for. A condition on a text, an integer or a reference finds exactly the declarations whose field has such a literal: texts without regard to letter case, integers by order, references however the file spells them. firm query answers the same.", "quantifier": "every workspace in the documented syntax, every parser of that syntax, every type, field, text, integer and reference", "why_tests_cant": "workspaces, texts and numbers are unbounded", "anchors": ["firm_lang/src/workspace/mod.rs: Workspace", "firm_lang/src/parser/dsl/parsed_value.rs: ParsedValue", "firm_lang/src/parser/query/mod.rs: parse_query", "firm_core/src/graph/query/mod.rs: Query", "firm_core/src/graph/query/filter/mod.rs: FilterCondition", "firm_cli/src/commands/query.rs"]}
{"id": "C74", "title": "A process that is killed leaves the files in a known state", "statement": "If the tool server is killed at any moment while it handles edits of different files, each of these files is what it was, what the edit makes of it, or the beginning of one of the two texts, and no other file differs. If it is killed, any number of times, while it handles additions, every file still begins with the text it had, and what follows is new blocks or the beginning of one; likewise for firm add with flags and by questions, but for the two files of the saved graph. It fails that an edit or an addition is all or nothing, and that a rejected edit is undone.", "quantifier": "every workspace, every list of requests, every order of their steps, every moment of the crash", "why_tests_cant": "schedules and crash points are unbounded", "anchors": ["firm_mcp/src/resources.rs: write_source_file, delete_source_file", "firm_mcp/src/tools/write_source.rs: rollback_write", "firm_mcp/src/tools/delete_source.rs", "firm_mcp/src/tools/add_entity.rs", "firm_mcp/src/server.rs", "firm_cli/src/commands/add.rs"]}
{"id": "C75", "title": "What the prompts offer for completion can be chosen, and everything there is is offered", "statement": "While a reference is typed, the types are offered before the first dot and then the declared entities and fields; each of these offers is a reference that the prompt takes, none comes twice, and every declared entity and field is offered for every beginning of it with as many dots. While a path is typed, what is offered is there, begins with what was typed and ends in a slash if it is a directory, and everything in the workspace is offered for every beginning of its name. This fails for types typed with capitals (taken but not offered), for offers after a trailing underscore (they do not begin with what was typed), and for the dot of a hidden file (nothing is offered).", "quantifier": "every workspace in the documented syntax, every text typed; every file system, every path typed", "why_tests_cant": "texts, workspaces and directories are unbounded", "anchors": ["firm_cli/src/commands/field_prompt.rs: get_reference_suggestions, get_path_suggestions, parse_reference", "firm_core/src/id.rs: compose_entity_id", "firm_core/src/graph/access.rs: get_all_entity_types, list_by_type, get_entity"]}
{"id": "C76", "title": "Every value in a source file is read as what it stands for", "statement": "A literal of the documented syntax gives the field the value it stands for, or is refused if it stands for none: texts without their quotes (and triple-quoted ones without their indentation), integers of 64 bits, decimals as the one double IEEE 754 prescribes, amounts exactly to 96 bits and 28 decimals in a known currency, references by their normalised ids, days of the calendar at local midnight, times in the zone written or the local one, paths from the directory of the file, enumeration values, and lists of values of one kind. In a workspace of such files the fields of every entity are what its block says, the first where a name comes twice. The text of a path or enumeration value that ends in path or enum loses that end.", "quantifier": "every literal of every kind in the documented syntax, every file of every workspace that builds", "why_tests_cant": "literals, files and workspaces are unbounded", "anchors": ["firm_lang/src/parser/dsl/parsed_value.rs: ParsedValue::from_node, parse_boolean, parse_string, parse_number, parse_currency, parse_reference, parse_list, parse_date, parse_datetime, parse_path, parse_enum", "firm_lang/src/convert/to_entity.rs", "firm_lang/src/workspace/build.rs"]}
{"id": "C77", "title": "What is written alike in a source file and in a query means the same", "statement": "If a source file has a literal for the value of a field, the query from * | where field == literal finds the entities with that value. It does so exactly if: a text is on one line and does not begin with a blank; an integer has at most 53 binary digits with zeros behind them (or is the largest of 64 bits); a decimal is at most 2^63; an amount (of ordinary size) is a whole number of halves, quarters, eighths ...; a reference is written normalised, up to letter case; there is no time of day; a path is the same from the root of the workspace; and an enumeration value does not end in enum. In all other cases the query is refused or finds none of them. A query takes a number for the nearest double, and if that is an integer, for the nearest 64-bit integer.", "quantifier": "every literal of the documented syntax, every field, every entity, every conversion of floats to decimals that keeps 24 digits", "why_tests_cant": "literals and entities are unbounded", "anchors": ["firm_lang/src/parser/dsl/parsed_value.rs: ParsedValue::from_node", "firm_lang/src/parser/query/grammar.pest: value", "firm_lang/src/parser/query/parser.rs", "firm_core/src/graph/query/filter/mod.rs: FilterCondition"]}
{"id": "C78", "title": "An accepted query consists of what is run and nothing else", "statement": "A query text that is accepted consists of the tokens of one query, in their order and with nothing but white space around them, and that query is what is run; any other text is refused, and firm query fails on it in every workspace. So no part of a text is skipped and nothing is filled in. Two findings: words need not be kept apart (fromperson is accepted), and where they are not, the text may be read as a different query with the same letters (order nameasc orders by nameasc).", "quantifier": "every text", "why_tests_cant": "texts are unbounded", "anchors": ["firm_lang/src/parser/query/grammar.pest", "firm_lang/src/parser/query/parser.rs: parse_query", "firm_lang/src/convert/to_query.rs", "firm_cli/src/commands/query.rs"]}
{"id": "C79", "title": "The steps of a query combine as one expects", "statement": "Conditions in a row may change places, and ordering may come before or after a condition, without a difference to the answer, whatever comes before and after; a condition, ordering or limit given twice is as good as once; of two orderings the latter decides and the former breaks ties; order | limit n answers the first n in the order; a limit before a condition answers the beginning of what it answers after it; a condition and its contrary share out the entities that have the field, so the counts add up; ordering changes no count; following relationships d and then e steps is following d + e steps, up to five. Findings: amounts of another currency are on neither side of a condition, and six steps go less far than three and three.", "quantifier": "every graph, every query before and after, every condition, ordering, limit and degree", "why_tests_cant": "graphs and queries are unbounded", "anchors": ["firm_core/src/graph/query/types.rs: Query::execute", "firm_core/src/graph/query/filter/mod.rs: FilterCondition, CompoundFilterCondition", "firm_core/src/graph/query/order.rs: compare_entities_by_field", "firm_core/src/graph/query/related.rs"]}
{"id": "C80", "title": "Additions change answers only by what was added", "statement": "If entities are added to a workspace, by the tool, by flags or by prompts, over any time and with any builds, questions and failures between, then a query by type and conditions, in any order, answers afterwards what it answered before and exactly those new entities that are of the type and meet the conditions; counts grow by as many. A query that follows relationships loses nothing. With a limit an entity may be pushed out.", "quantifier": "every workspace in the documented syntax, every history of additions, every query", "why_tests_cant": "workspaces, histories and queries are unbounded", "anchors": ["firm_mcp/src/tools/add_entity.rs", "firm_cli/src/commands/add.rs", "firm_lang/src/workspace/build.rs", "firm_core/src/graph/mod.rs: EntityGraph", "firm_core/src/graph/query/types.rs: Query::execute"]}
{"id": "C81", "title": "A set-up that is broken off can be finished", "statement": "If firm init is killed at any moment, every place in the workspace is as it was, or is one of the command's own files with the beginning of its text (new, or overwritten after a yes; the .gitignore with all it had), or the new directory for the schemas. The command can then be run again, however often it is killed, and saying yes to every question completes all its files and touches nothing else; a workspace started in an empty directory then builds with the sixteen schemas and the two entities. It fails that taking the answers that are offered (an empty line each) is enough: then what there is of the schemas is left as it is, success is reported, and the workspace does not build.", "quantifier": "every directory, everything done at the terminal, every moment of the kill, every number of kills", "why_tests_cant": "crash points and file systems are unbounded", "anchors": ["firm_cli/src/commands/init.rs: init_workspace, create_default_schemas, create_or_update_gitignore, create_default_entities, create_ai_context", "firm_cli/src/main.rs"]}
{"id": "C82", "title": "How the blocks are distributed over files makes no difference", "statement": "If two workspaces have the same schema and entity blocks, then, whatever files and directories these are in, in whatever order, and whatever white space and comments are between them, one builds exactly if the other does, with the same schemas and entities; every entity is found under its id alike, and every query without a limit answers with the same entities and the same count, and one that is ordered by id with the same list. A block with a path literal must stay in its directory: the path is relative to the file.", "quantifier": "every two workspaces in the documented syntax with the same blocks, every id, every query", "why_tests_cant": "workspaces, their directories and texts are unbounded", "anchors": ["firm_lang/src/workspace/io.rs: Workspace::load_directory", "firm_lang/src/workspace/build.rs: Workspace::build", "firm_lang/src/parser/dsl/parsed_value.rs: parse_path", "firm_core/src/graph/query/types.rs: Query::execute", "docs/src/getting-started/workspace.md"]}
{"id": "C83", "title": "A schema that is only loosened breaks nothing", "statement": "If in a workspace that builds the schemas are changed only so that fields are dropped, made optional, given further allowed values, or added as optional fields that no entity of the type has, if schemas without entities are removed, and if schemas are added for types that had none, then the workspace goes on building, with the same entities, and every question by id and every query without a limit is answered as before. Finding: that a new field is optional is not enough, since entities may have undeclared fields.", "quantifier": "every workspace in the documented syntax, every such change of its schemas, every id and query", "why_tests_cant": "workspaces and schemas are unbounded", "anchors": ["firm_core/src/schema/mod.rs: EntitySchema::validate", "firm_lang/src/convert/to_schema.rs", "firm_lang/src/workspace/build.rs: Workspace::build", "docs/src/guide/creating-schemas.md"]}
{"id": "C84", "title": "The commands get, list and related agree with the queries that ask the same", "statement": "firm get t i shows the entity that the query from * | where @id == \"t.i\" finds, and fails where the query finds nothing; firm list t shows the ids of what from t finds, in the same order, as many as from t | count says, and none exactly where the query knows no such type; what the query ... | related finds is the entity itself and the entities whose ids firm related t i shows. So too in the tool server. Findings: the related command leaves the entity itself out, and the list command does not take other spellings of a type that the query takes.", "quantifier": "every workspace that builds, every type and id in normalised spelling", "why_tests_cant": "workspaces and names are unbounded, and the answers come from different code", "anchors": ["firm_cli/src/commands/get.rs", "firm_cli/src/commands/list.rs", "firm_cli/src/commands/related.rs", "firm_cli/src/commands/query.rs", "firm_mcp/src/tools/get.rs", "firm_mcp/src/tools/list.rs", "firm_mcp/src/tools/related.rs", "firm_core/src/graph/query/types.rs: Query::execute"]}
{"id": "C85", "title": "An edit made through the tool server can be taken back", "statement": "After a successful write_source, replace_source or delete_source, forced or not, the request that writes the former text back (or deletes the file if there was none) is accepted without force, every file has the text it had, and schemas, entities and answers are those of before. So for a whole series of accepted edits, taken back last first. Findings: a file that had a syntax error can be written over but not written back, and a directory that took the name of a deleted source file stands in the way of it.", "quantifier": "every workspace without links whose sources have no syntax errors, every history of edits", "why_tests_cant": "workspaces, texts and histories are unbounded", "anchors": ["firm_mcp/src/server.rs: write_source, replace_source, delete_source, build", "firm_mcp/src/tools/write_source.rs", "firm_mcp/src/tools/replace_source.rs", "firm_mcp/src/tools/delete_source.rs", "firm_lang/src/workspace/build.rs"]}
{"id": "C86", "title": "What the tool server says it did is what it did", "statement": "The text and the error mark of an answer of the tool server tell the truth. An answer marked as an error means that the served workspace is as before and that no file changed. An answer not marked as one means that what was asked for was done: the file now has the content written, or the old text with the occurrences replaced, or is gone. Such an answer ends in 'Workspace is valid.' exactly if the files now build, and then they are what is served; otherwise it carries a warning with the reason and the former workspace is served. 'Created' or 'Updated', the number of bytes, the number of occurrences replaced and the numbers of entities and schemas are the true ones. Get and related report that an entity is missing exactly if it is, 'No related entities found' is said exactly if there are none, and an addition shows the very block that is now at the end of the file.", "quantifier": "all workspaces, all states served, all requests with any path and content, all directions, and all texts of the errors of the parser, the loader and the operating system", "why_tests_cant": "A test looks at the answer to one request, or at the files after it. That the two agree on every path through write, rollback, force and rebuild, for every content and every state of the directory, is a statement about all of them.", "anchors": ["firm_mcp/src/server.rs: FirmMcpServer::write_source, replace_source, delete_source, build, add_entity, get, list, related, find_source", "firm_mcp/src/tools/write_source.rs", "firm_mcp/src/tools/replace_source.rs", "firm_mcp/src/tools/delete_source.rs", "firm_mcp/src/tools/build.rs", "firm_mcp/src/tools/add_entity.rs", "firm_mcp/src/tools/related.rs", "firm_mcp/src/resources.rs"]}
{"id": "C87", "title": "The message of a failed build is true and lists every fault of the entity it names", "statement": "There is a message exactly if the build fails. What it says is so: the file it names is there and has the fault it describes. A message that an entity is invalid names the file the entity is in, its type and id, and lists every violation of its schema, each with the field and the entity it is about. A message that a schema is missing names a type that an entity of the file has and no file defines, and the hint to run 'firm init' is given exactly if the type is one of the built-in ones; after following the hint no built-in type is missing any more. A message that an entity exists already is given only if two entities of the workspace share an id. Not promised: that the message names the doubled schema, the entity and field of an unreadable value, or every entity at fault.", "quantifier": "all directories, all contents of source files, all orders in which files, schemas and fields are visited, and all texts of operating system errors, syntax trees and quoted strings", "why_tests_cant": "A test provokes one error and compares one text. That no failure of any workspace produces a message naming the wrong file, the wrong entity or an incomplete list is a statement about all workspaces and all orders of iteration.", "anchors": ["firm_lang/src/workspace/build.rs: Workspace::build_with_progress, validate_entity", "firm_lang/src/workspace/io.rs: load_directory, load_file", "firm_lang/src/workspace/workspace_errors.rs: WorkspaceError", "firm_core/src/schema/validation_errors.rs: ValidationError", "firm_lang/src/convert/conversion_errors.rs: EntityConversionError, SchemaConversionError", "firm_mcp/src/server.rs: FirmMcpServer::rebuild"]}
{"id": "C88", "title": "The message of a failed query is true and its advice can be followed", "statement": "The answer to a query is marked as an error exactly if the query cannot be read or cannot be answered, and a query for entities is answered with 'No entities found' exactly if there are none. The message of a query that cannot be answered is so: no entity has the type it calls unknown and the types it lists are those of all entities; an entity that reached the step has a value of the type named, which cannot be compared with the operator or the value as the message says; what was to be aggregated has the fault named. The operators listed are exactly those that value takes, each type listed has entities, the condition proposed for a sum over several currencies can be pasted before the sum and leaves amounts of one currency, and any combination of conditions with 'and' and 'or' can be asked for in separate steps as advised. Not promised: that the listed operators can be copied into a query, that the proposed condition keeps every amount in the currency, that the operator is named as written, that an 'empty result set' is empty, that the type named is that of the field rather than of an item, or that a date and time in the format advised can be written in a query.", "quantifier": "all query texts, all graphs built by any sequence of operations, all orders of iteration, all numbers and currencies", "why_tests_cant": "A test compares one message with one text. That no query on any graph is refused with a message naming the wrong type or an operator that would be refused again is a statement about all of them.", "anchors": ["firm_core/src/graph/query/query_errors.rs: QueryError", "firm_core/src/graph/query/types.rs: Query::execute", "firm_core/src/graph/query/filter/mod.rs: compare_values", "firm_core/src/graph/query/aggregation/sum.rs: compute_sum", "firm_lang/src/parser/query/parser.rs: QueryParseError", "firm_mcp/src/tools/query.rs: execute", "firm_cli/src/commands/query.rs: query_entities"]}
{"id": "C89", "title": "Edits of different files can be made in any order", "statement": "After a series of successful edits of different source files through the tool server, forced or not, each of these files holds what its edit makes of the text it had at first and every other file is as it was. So if the same edits succeed in another order the files are the same, the last edit is accepted in the one order exactly if it is in the other, and the schemas, the entities and the answers to queries are then the same. The same holds if the requests overlap in any way and are all accepted. Not promised: that every order is accepted (an entity cannot be written before its schema), or the same for edits of one file.", "quantifier": "all workspaces, all series of writes, replacements and deletions of different files, all orders of them and all interleavings of their steps", "why_tests_cant": "The number of orders and interleavings grows faster than exponentially with the number of edits; a test tries a few.", "anchors": ["firm_mcp/src/tools/write_source.rs: execute", "firm_mcp/src/tools/replace_source.rs: execute", "firm_mcp/src/tools/delete_source.rs: execute", "firm_mcp/src/server.rs: FirmMcpServer::rebuild"]}
{"id": "C90", "title": "What an entity is called makes no difference", "statement": "If entities are given other names (different names stay different, also when capitals are not told from small letters), and every reference to them is changed alike, then after any history of changes to the graph every call reports the same outcome, every entity is found under its new name with the same fields, every list by type and every reference to an entity or field resolves to the same thing, the neighbours of an entity are the same, the schema finds the same faults, and every query whose conditions are not about the letters of a name gives the same entities; without relations and ordering by names it gives the same list, in the same order, up to the same limit, with the same sums and counts and the same error. What does depend on the letters is named: an order by @id, a reference compared with a text, and a field reference compared with a reference.", "quantifier": "every renaming of ids, every history of additions, builds and clears, every id, value and direction, every query and hash iteration order", "why_tests_cant": "A test renames one entity in one graph; a comparison of ids by prefix, length or position would pass it and fail for other names.", "anchors": ["firm_core/src/graph/mod.rs: EntityGraph::add_entity, build", "firm_core/src/graph/access.rs: get_entity, get_related, resolve_entity_reference, resolve_field_reference, list_by_type", "firm_core/src/graph/query/types.rs: Query::execute", "firm_core/src/graph/query/filter/reference.rs: compare_reference", "firm_core/src/schema/validation.rs: EntitySchema::validate"]}
{"id": "C91", "title": "An edit changes exactly what its file declares", "statement": "After an edit of a source file through the tool server was accepted, the schemas and entities served are those that the file now declares together with those that the other files declared before, unchanged. So an entity asked for by id is the one the file now declares; if it declares none under that id but did before, there is none; otherwise it is the one there was. A deletion takes away the entities of the file and no others; a new file adds its own and leaves the others. Not so after a forced edit that does not build: what is served then stays as it was.", "quantifier": "all workspaces of text files without symbolic links, all contents, all accepted writes, replacements and deletions by plain paths, all ids and hash orders", "why_tests_cant": "The server rebuilds everything after each edit; that the rest of the workspace comes out the same depends on every file and every order in which files are visited.", "anchors": ["firm_mcp/src/server.rs: FirmMcpServer::rebuild, write_source, replace_source, delete_source", "firm_lang/src/workspace/build.rs: Workspace::build", "firm_lang/src/workspace/io.rs: load_directory"]}
{"id": "C92", "title": "Reported progress counts the files and shows where a build stopped", "statement": "A build that is watched comes out as one that is not. It reports once before the schemas and once before the entities of each file, each time with the number of files and the number of files already done; so when a build fails, either no file's entities were begun and the schemas are at fault, or the file the error names is the one begun last, every file before it is sound and that one is not. The bar of the command line never shows more than there is, never goes back or skips a file, and ends full if the build succeeds. No report says that all files are done. The debug log of an unwatched build gives the two numbers the wrong way round.", "quantifier": "all lists of loaded files, all contents, all hash orders, builds that succeed, fail or panic", "why_tests_cant": "It ranges over every number and order of files and every place where a build can stop.", "anchors": ["firm_lang/src/workspace/build.rs: Workspace::build, Workspace::build_with_progress", "firm_cli/src/commands/build.rs: build_workspace", "firm_cli/src/ui.rs: progress_bar"]}
{"id": "C93", "title": "Letters beyond ASCII: what ignoring case means, whatever the library lower-cases", "statement": "Whatever the library's lower-casing does with letters beyond ASCII: contains, starts_with and ends_with hold exactly when the lower-cased literal occurs in the lower-cased field (in one of its items, for a list of texts), ordering is the one stable sort by the lower-cased texts with missing values last, an enum field admits exactly the words equal to a declared value but for case and outer white space, and searching the sources reports the first fifty lines whose lower-cased text holds the lower-cased query. On a workspace and a query of ASCII texts the answer does not depend on it. But == and != ignore the case of ASCII letters only: a text can contain, start and end with a literal and sort level with it and yet differ from it.", "quantifier": "all functions in place of str::to_lowercase, all texts, lists, entities, fields and directions, all operation histories, hash orders and queries", "why_tests_cant": "It ranges over every text in every script and every version of the Unicode tables.", "anchors": ["firm_core/src/graph/query/filter/string.rs: compare_string, compare_path", "firm_core/src/graph/query/filter/list.rs: compare_list", "firm_core/src/graph/query/order.rs: compare_entities_by_field, compare_field_values", "firm_core/src/schema/mod.rs: FieldSchema::new_enum", "firm_core/src/schema/validation.rs: validate", "firm_mcp/src/tools/search_source.rs: execute"]}
