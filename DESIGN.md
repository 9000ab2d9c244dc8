# Formal model of 42futures/firm: design

## Layout

`rocq/theories/` holds three kinds of files.

* `M_*.v` – the model: executable Gallina, one definition per Rust function,
  each with a comment citing file and lines. No proofs.
* `S_*.v` – small independent specifications used in theorem statements.
* `L_*.v` – lemmas and proofs.
* `P_*.v` – the property theorems and nothing else: statement, `exact lemma.`,
  `Print Assumptions`, and an `Example` meeting the hypotheses.

## Modelling decisions

| Rust | Model |
|---|---|
| `String`, `&str`, `PathBuf` | `str := list ascii`, the UTF-8 bytes |
| `to_lowercase` | lower-cases ASCII letters only (simplification; non-ASCII letters are left alone). C93 treats queries, ordering, enum values and searching for an arbitrary lower-casing of the other letters and shows that it does not matter on ASCII texts |
| `char::is_whitespace` / `trim` | ASCII white space only, except in the multi-line string model, where the multi-byte white-space characters are modelled as byte sequences |
| `i64` | `Z` with explicit range; overflow is an explicit outcome |
| `f64` | stdlib `SpecFloat.spec_float` with prec 53, emax 1024, round to nearest even (no axioms) |
| `Decimal` | sign, mantissa, scale; value = mantissa / 10^scale |
| `DateTime<FixedOffset>` | local civil date, seconds of day, offset seconds; instant = days*86400 + secs - offset |
| `HashMap`, `HashSet` | association lists / duplicate-free lists; iteration order is a universally quantified permutation |
| `Result`, panic | explicit error values |
| `&mut self` | state-returning functions |
| tree-sitter | oracle (the grammar submodule is empty in the pinned tree): a universally quantified function from text to declarations |
| pest | the grammar is modelled rule by rule as recursive-descent functions with pest's implicit white-space rule |
| chrono / rust_decimal / convert_case | concrete small models of the documented behaviour, or universally quantified oracles, stated beside each definition |
| file system | finite map from absolute paths to nodes (file bytes, directory, symbolic link) |

## Per-property plan

* **C01** `M_Ids.to_snake` (convert_case 0.8 default boundaries). Proof: the output is a join of
  boundary-free lower-case words; re-splitting gives the same words.
* **C02** compose/decompose on `M_Ids`. Round trip by cases on the first dot; collisions of
  differently spelled identifiers are exhibited (`_refuted`).
* **C03** `M_Convert.to_entity` uses one compose function for declarations and references;
  theorem over all parsed entities.
* **C04** field names: `to_query` snake-cases, `to_entity` does not. Proved for fixpoints of
  `to_snake`, refuted in general; which fields and types a query can ask for is stated exactly.
* **C05** refinement of `M_Graph` (nodes, entity map, type map, edges) to a first-wins map over op lists.
* **C06** edge characterisation by induction over values (nested lists) and fields.
* **C07** neighbour characterisation; sortedness by the byte order of ids.
* **C08** relation `chain` (inductive specification) versus the fuelled search.
* **C09** type-map invariant over op lists.
* **C10** `filter`-specification of where; conjunction law.
* **C11** decision laws per value type; floats are given exactly, by value and by distance in units of 2^-1074 (`S_Round`, `L_FloatSub`); refuted for close floats (epsilon), infinities, currency, missing fields.
* **C12** `firstn` laws.
* **C13** uniqueness of the stable sorted permutation; total preorder proved on comparable values;
  refuted on mixes.
* **C14** BFS versus an inductive bounded reachability relation.
* **C15** direct specification.
* **C16** exact totals with explicit overflow; permutation invariance; refuted outside the range.
* **C17** order facts on `SpecFloat`; mixed currencies refuted.
* **C18** two runs with two iteration orders; permutation / equality.
* **C19** support table; `in` refuted.
* **C20** civil dates, days numbered one by one along the Gregorian calendar (S_Calendar); literal with a time part refuted.
* **C21** surface syntax tree, printer with arbitrary white space, parser model; round trip.
* **C22** f64 conversion: every literal is rounded to 53 binary digits, ties to even (`rounded` in `S_Round`); refuted where rounding changes the number.
* **C23** proved for text not starting with white space; refuted otherwise.
* **C24–C28** generate/parse functions at the level of one value's source text, as exact
  characterisations of the values that survive (`S_Dsl.survives`). What tree-sitter
  does to find the extent of a value is not modelled; that it finds the node kind of what was
  generated is part of `S_Dsl.written`.
* **C29, C30** direct.
* **C31** boolean specification; permutation invariance of the error list.
* **C32** order preservation, round trip at the level of declared fields.
* **C33, C34** two-pass build over a list of parsed files; permutation invariance.
* **C35, C36** server state machine (`M_Server`) over the file-system model (`M_Fs`) with a parse
  oracle: single requests by effect lemmas, histories by an invariant over request lists.
* **C37** path resolution with symbolic links; proved for existing targets and plain new ones, refuted
  for absolute paths and linked directories.
* **C51** from the edge theorem C06 and the loading theorem C48; refuted for deletions.
* **C52** structural induction over the directory walk against the set of files in the tree.
* **C38** split/join specification of non-overlapping matches.
* **C39, C40** the file walk of C52 gives the paths; search against the unique sorted list of all hits; the printed text determines the hits shown.
* **C53** the tree fold against the set of source files; the printed text determines the tree (names without line feeds; refuted with them).
* **C54** from the graph theorems C05, C07 and C48; refuted for ids as shown by `list`.
* **C41** `M_Conc`: requests as sequences of steps, schedules as lists of turns. Invariants over
  schedules: edits of different files (all schedules), and runs in which no build fails (last edit
  stands, served is the disk). Refuted by schedules for rollbacks over another's write, rollbacks
  under an accepted build, two replacements, and two additions of an id.
* **C42** crash semantics (prefix of steps, torn write); one crash proved, two refuted.
* **C56** the disk after any list of saves agrees with the disk before but for two names; loading ignores them.
* **C43** bounded search; the first unused candidate, by pigeonhole new below 1000 entities, refuted at the cap.
* **C57** the state a reading command works on is that of a rebuild, because saving the graph does not change loading (C56).
* **C58** the flags against a relational specification that reads each value as the source reader does; effects on the disk as C44; paths by walking back and forth. Conversely what is asked is added; the first of its type makes `generated/<type>.firm` (P_First, for C44 and C59 too).
* **C59** `M_Prompt`: prompts as functions of the list of what the user does; soundness and completeness
  against the relation `S_Prompt.dialogue`. C44, C58 and C59 share `L_Grow`: a source that gains one
  entity block makes the build gain one entity.
* **C60** `M_Init`: the command as parts in sequence, each a function of the file system and of what is
  still to be typed; an effect relation for each part, composed; the new workspace by loading and
  building it (C52, C32, C47). Refuted: repeated .gitignore entries, quotes in names, dangling links.
  What the sixteen built-in types ask for is the table `S_Builtin.built_in`, drawn up from `defaults.rs` apart
  from the model, and compared with what validation accepts.
* **C61** `M_Json` (texts, with the number conversion of serde_json step by step) and `M_GraphJson`
  (the shapes serde derives): reading what was written, by induction on values; the float case by
  comparing quotients and remainders of the two divisions. The same answers from permuted hash maps.
* **C62** reading a text and reading more text after it agree once a value is closed, so a proper
  beginning cannot be closed; numbers are skimmed, so that nothing is assumed of their values.
* **C63** the documented syntax as inductive relations (`S_Syntax`), one per paragraph of the reference;
  a parser for it (`M_Syntax`), proved to find every reading by induction on the relations, gives that
  a text has one reading and that the assumption made of parsers can be met.
* **C64** the generated text is derived in these relations by induction on values, fields and schemas.
* **C65** the additions of C44, C58, C59 and C60 with C63 and C64 in place of what is assumed there of
  the parser; the sources stay in the documented syntax.
* **C66** induction over a history of events (`S_Life.life`) with the invariant that all sources are in
  the documented syntax and the workspace builds; refused and failing steps change only graph files and
  directories, and the same sources give the same build up to order. Refuted: a directory with the name
  of a graph file.
* **C67** `M_Show`, `M_Output`: serde_json's indented text of entities, schemas, lists and results; reading
  it (`M_Json.read_json`) gives what was written by induction on the value, and with C57 the printed answer
  of a command is the server's. Refuted: an infinite float is printed as null.
* **C68** `M_Show`: the text shown of values, entities, answers, tables and schemas; what is shown alike is
  alike, by cutting the texts at separators that the parts cannot have. Refuted without those conditions: a
  line feed in a text, commas in items, a text "-" in a table, values of two types.
* **C69** `M_Tree`: the walk over the tree of the library, node by node. The shape of the trees is a relation
  (`S_Tree.file_tree`) between blocks and trees; what is read is what is related, by induction on the tree, and
  every text in the documented syntax has a related tree, by induction on the syntax relations of C63.
* **C70** effect lemmas of the edits (C35, C36) with what was checked of the text, then induction over the
  requests. Refuted: that a broken source is reported; loading is the same with a parser that finds no errors.
* **C71** the amount written is rounded to binary (`L_Near`, by the location of the quotient), then to a decimal
  within an assumed error (`S_Amount.retains`; an instance is shown to have it); the two errors together are
  less than the distance to the next amount, and nothing only if 5^decimals divides the amount. Refuted: 19.99.
* **C72** panics are values of the model (`Panic`, `Crashed`, `Died`, `Panicked`), so a crash can be traced back through every function:
  reading a value is proved to panic exactly for `S_Crash.crashing`, and each caller to panic only where something it calls does. The
  absence of crashes over histories is an invariant (all files ASCII) together with the fact that nodes quote the text.
* **C73** end to end, with no function of the model between the files and the answer in the statement: `S_Whole.built` (a workspace in the documented syntax that builds), `declares` (a file has this block), `has_text`, `has_integer`, `refers_to` (what a literal stands for) on one side, the text of a query and the ids of the answer on the other. Composed from the syntax theorems (C63, C64), the build (C37), the query language (C21) and its execution (C10, C18). `S_Found.v` adds what yes-or-no fields, enumerations and days stand for, and `S_Links.v` which block names which; the latter is compared with the answer of the `related` tool (C54). Sums, averages and medians of integer fields are those of the declared integers (C16, C17).
* **C74** killed processes: `M_Kill` takes each step of `M_Conc.advance` and the last write of `firm add` apart into the file systems it goes through (directories from the outermost, then a file with the first n bytes); `killed` is any of them after any schedule. Edits: invariant `L_Conc.sees` at the step that is broken off. Additions: `grown` (every file begins with what it had) by induction over steps and over processes. Not modelled: power loss (the order in which the kernel writes back). `firm init` broken off is C81.
* **C75** completion: `M_Suggest`. References over `S_Whole.built` (what the files declare): the beginning of a normalised name, normalised, is a beginning of it (`L_Suggest.snake_prefix`). Paths on the file system with links: a walk stays the same when pieces that stay in place are left out (`walk_thin`).
* **C76** literals: `S_Literal.denotes` says for each kind what the text stands for, `S_Nearest.nearest_double` what IEEE 754 rounds a fraction to; `L_Nearest.ratio_nearest` shows the division and rounding of the model correct and `nearest_once` that there is no other result. The reader and `denotes` agree on every literal of the documented syntax (`L_Literal`); lists and whole workspaces follow, the latter through `S_Whole.built`.
* **C77** literals in queries: `S_Alike.means_the_same` says when a source file and a query mean the same by one text; `L_Alike` follows the query parser for each kind of literal (through the token grammar of C21, or step by step where the parser stops in the middle) and the comparison with the stored value (rounding: C22, amounts: C71, decimals: C76).
* **C78** accepted queries: `S_Accept.made_of` is the token grammar of C21 with any white space, or none, between the tokens; `L_Accept` follows every function of the query parser and shows that what it took off the text is strung from the tokens of what it made.
* **C79** laws of queries: `where_step` is a filter wherever it answers (`L_Laws.where_filter`), filters commute with the stable sort by its uniqueness (C13), ties by the stability of the second sort, `related` by splitting and joining bounded paths (C14); `L_Laws.middle` carries a law on two steps over to whole queries.
* **C80** answers and additions: C66 gives the entities before and after any history of additions; `L_More.answers_in` says which of a graph's entities a query without limit and `related` answers, and `answers_more` that every step but a limit is monotone in the entities.
* **C81** `firm init` broken off: `M_Setup` has for each part of `M_Init` the file systems it goes through; `L_Setup.in_does` composes them with `L_Init.does` of the parts before. Finishing: `init_again` runs the dialogue with a yes to every question, one more where a file is there; the build is that of C60.
* **C82** arrangement of blocks: `S_Spread.written_in` lists the blocks of all source files with their paths; `same_blocks` pairs those of two workspaces. `L_Spread`: loading gives exactly these blocks (C52), what a block is read as depends on the path only through the parent directory, and only if there is a path literal; so `consistent` (C33) carries over, and queries over two graphs of permuted entities agree (as C18 for two hash orders).
* **C83** loosened schemas: `S_Loosen.schema_says` (declarations of C32) and `loosened` compare schema blocks as written; `L_Loosen.loosened_takes` shows that whatever conformed conforms, and `rebuild_reads`/`rebuild_from` (C33 on the blocks of C82) that the workspace builds to the same entities.
* **C84** `P_Agree`: the query texts are S_Agree's; reading by C21, `from` by C18, `related` by C14, the tools by C54, the command line by C57.
* **C85** `P_Undo`: the effect of each request (C36, C37), the preservation of error-free sources (C70), and the rebuild of files that differ by directories only (C66); the series by induction, the last edit undone first.
* **C86** M_Answer.v adds the texts to the tools of M_Server, M_Add and M_Tools; the wordings of errors that come from the parser, the loader and the operating system are an argument. S_Answer.v says what it is for an edit to be done and for a text to state a number. L_Answer.v shows that the tools with texts do what the tools without them do, so that the theorems on edits (C35, C36, C38, C44) and on lookups (C54) apply.
* **C87** M_Blame.v repeats the loading and building of M_Workspace and M_Server with the errors in full, and gives the text of each; escaped strings, operating system errors and syntax trees as debug text are an argument. S_Blame.v says of a text when it is a true account of a fault. L_Blame.v shows that forgetting the texts gives the build of M_Server, so that failure is the same, and that each error is a true account.
* **C88** M_QFail.v gives the text of each error of M_Query and M_QParse and the answer of the query tool; what the parser generator says of a text is an argument. S_QFail.v says when a text is a true account of why a query cannot be answered. L_QFail.v follows the execution of the query to the step that fails, and puts a combination of conditions into conjunctive normal form to show that separate steps suffice.
* **C89** On the model of the tool server (M_Server.v, M_Conc.v). S_Swap.v says which file a path names and what text each edit leaves in it. L_Swap.v follows one edit and, by induction, a series; equality of the builds comes from the fact that the build depends only on the source files (C34, C52).
* **C90** Equivariance: each function of the graph commutes with the renaming (the graph's map gets its keys renamed, the edges stay). Neighbours and traversals by the characterisations of C06 and C14; conditions by cases on value and filter value; sorting because the comparison is unchanged.
* **C91** The loaded files are split into the edited one and the others (by NoDup and the exact characterisation of what is loaded, C52); reading blocks is a map, so the served lists split alike, and the others' parts agree up to order.
* **C92** The build of C87 with the list of reports beside its outcome; induction over the files. Where it stopped is said by soundness of files (every entity readable and conforming to a schema), not by the model's own steps. indicatif's finish_with_message (the bar moves to its end) is modelled as documented.
* **C93** The functions that call str::to_lowercase take the lower-casing as an argument. The order is brought back to the ordering of C13 by spelling every lower-cased text in letters that ASCII lower-casing leaves alone, in the same order.
* **C45** case-insensitive substring relations and list membership, independent of the matching code.
* **C46** 32-bit arithmetic with an overflow-check flag; every number of hours; refuted where the seconds overflow.
* **C47** field-wise survival plus the identifier conditions.
* **C48** refinement of load to the list of declared entities, using the graph theorems.
* **C49** direct; refuted for normalised ids.
* **C50** exact condition on the name; refuted otherwise.
* **C44** `M_Add`: field conversion against the relation `S_Add.means`, appending by effect lemmas on
  the file system, serving by C52, C48 and C47; refuted for values the generated text does not carry.
* **C55** the relative path of `pathdiff` against walking along path components.

## Trusted base

* Coq 8.16.1's kernel (and `coqchk`), with `vm_compute` used in examples and refutations.
* `Print Assumptions` under every property theorem prints "Closed under the global context": no
  axioms, neither the standard library's nor others. (`coqchk` lists `Coq.ssr.ssrunder.Under_rel.*`
  for the whole development; these are the abstract fields of a sealed standard-library module that is
  loaded with `Lia`, and no theorem here depends on them.)
* The reading of /repo recorded in the comments of `M_*.v`.
* The library behaviour recorded there: `convert_case`, `chrono`, `rust_decimal`, `pathdiff`,
  `path_clean`, `petgraph`, `serde_json`, `std::fs` and `pest`, each as far as it is used.

### Modelled

* firm_core: ids, values, entities, graph (build, lookup, related), query execution and aggregation,
  schema validation and building.
* firm_lang: reading the blocks from syntax trees; conversion of syntax nodes to entities, schemas and queries; value parsing; generation of
  DSL text; the query grammar; loading and building workspaces; finding sources.
* firm_mcp: all tools (write, replace, delete, add, read, list, get, related, query, search, tree, find
  source, build, resources) on a model of the file system with links; overlapping write requests, in
  steps between which the code does not hold the lock.
* firm_cli: building, saving and loading the graph, with interruptions at every point of a save; get, list, related, query, source, add from flags and add from prompts, with and without --cached; init with the default schemas; ids for new entities;
  what is printed of answers as JSON and as text.

### Not modelled

* tree-sitter: the parser of source files is a function given as an argument. That it yields, for
  generated text, the nodes of what was generated is a hypothesis where it is needed
  (`S_Dsl.written`, `S_Schema.written_schema`). C63 to C65 replace this hypothesis by: the parser gives
  for a text in the documented syntax what the text declares (`S_Syntax.follows_syntax`). The reference
  (dsl_reference_content.rs) leaves some things open; read in `S_Syntax`: white space between tokens is
  blanks, tabs, line ends and comments; a comment runs to the end of the line; a name begins with a
  letter or an underscore (as the reference says of ids). A parser of that kind is given (`M_Syntax`).
  C69 models how the program reads the library's tree (`M_Tree`), so that what is left to assume is the
  shape of the trees (`S_Tree.makes_trees`).
* serde_json on graphs is an argument of C42, C56 and C57 (`M_Save.graph_json`); C61 and C62 model it
  (`M_GraphJson.serde_graph`). Not in that model: structs written as arrays, duplicate map entries in
  an index, the text of floats (an argument).
* Output: messages on the standard error, colours, the pretty output of `firm source`; dates outside the years
  0 to 9999 and offsets with seconds in shown dates; what is printed of related entities is that of a list.
* Printing of floats and of currency codes, RFC 3339 and decimal parsing in add_entity, the ISO currency table, the time
  zone of the machine: arguments of the theorems.
* Non-ASCII case folding; file names that are not UTF-8; permissions, full disks, hard links.
* The inquire library but for how its prompts end (`M_Prompt.ask`) and what they are given to offer (`M_Suggest`); parsing of floats and decimals and the
  list of currencies in prompts are arguments.
* The MCP protocol and its JSON, the terminal interface, logging, error message texts (but for those
  whose construction can panic).
