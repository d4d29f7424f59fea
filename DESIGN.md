# Formal model of garfix/richard

The model is an executable Gallina transcription of the Python code in `/repo/richard`,
branch by branch.  Every definition cites the file and lines that it models.

## Conventions

* **Values.** Python values that flow through the library are an inductive type `value`
  (`None`, bool, int, float, str, `Variable`, `ReifiedVariable`, tuple, list, `SemanticTemplate`).
  Floats are modelled as exact rationals (simplification); strings are 8-bit.
* **Python equality** is `py_eq` (numbers compare across bool/int/float, containers elementwise).
* **Bindings** (Python dicts) are association lists with unique keys; dict equality is `dict_eq`.
* **Effects.** `M A := W -> outcome A * W`, where `outcome` is `Ok`, `Exn` (a Python exception, state kept)
  or `OutOfFuel`.  The world `W` holds everything mutable.
* **Recursion.** The solver, its relations and the modules are mutually recursive through
  `context.solver`.  The model ties this knot with fuel (`solver_at n`); `OutOfFuel` models
  Python's recursion limit or non-termination and is a separate outcome in all theorems.
* **User modules** are arbitrary functions, so that solver theorems quantify over all of them.
* External systems (sqlite, SPARQL endpoint, `re`) are modelled by a small semantics or are parameters
  (universally quantified section variables) with their assumptions visible in the theorem.
* **Refuted claims.** Where the code deviates from what one would expect, the property states the guarantee
  and the deviation; the theorem that proves the deviation has the suffix `_refuted`.

## What is modelled

| code in `/repo/richard` | model |
|---|---|
| Python values, `==`, `repr`, dicts | `Py.v`, `Effects.v` |
| `core/atoms.py` | `Atoms.v`, `Logger.v` (`format_value`) |
| `core/Logger.py` (without statistics), the `log` methods of the products, `SentenceRequest.exec_process` | `Logger.v` |
| `entity/ParseTreeNode.py` | the tree in `Earley.v`, its texts in `Logger.v` (`tree_str`) and `TreeText.v` (`inline_str`) |
| `core/DialogTester.py` (without the profiler) | `DialogTester.v` |
| `data_source/MySqlDataSource.py`, `PsycoPg2DataSource.py`, `PsycoPg3DataSource.py` | `SqliteDataSource.v` (the text), `ServerDataSource.v` |
| `core/Solver.py`, `core/Model.py`, `entity/Relation.py`, `type/ExecutionContext.py` | `Solver.v` |
| `module/CoreModule.py` | `CoreModule.v` |
| `module/InferenceModule.py`, `type/InferenceRule.py` | `InferenceModule.v` |
| `module/helper/SimpleInferenceRuleParser.py` | `InferenceRuleParser.v`, `Lexer.v` |
| `entity/ResultIterator.py` | `ResultIterator.v` |
| `data_source/SimpleDataSource.py`, `data_source/CsvImporter.py`, `type/OrderedSet.py` | `SimpleDataSource.v`; the text of a file and `csv.reader` in `Csv.v` |
| `data_source/Sqlite3DataSource.py` | `SqliteDataSource.v`, on the SQL engine `Sql.v` |
| `data_source/SparqlDataSource.py` | `Sparql.v` (the endpoint: `SparqlEngine.v`) |
| a module that is a table per relation, as users write them | `TableModule.v` |
| `module/SimpleMemoryModule.py`, `module/BasicDialogContext.py`, `module/BasicOutputBuffer.py` | `Memory.v` |
| `block/*.py`, `core/System.py`, `entity/SentenceRequest.py`, `processor/semantic_executor/AtomExecutor.py`, `processor/language_selector/*.py`, products | `Pipeline.v` |
| `core/BasicGenerator.py` | `Generator.v` |
| `entity/GrammarRule(s).py`, `entity/RuleConstituent.py`, `module/GrammarModule.py` | `Grammar.v` |
| `processor/parser/helper/*.py` | `GrammarParser.v`, `Lexer.v` |
| Python `re` as far as the library and its grammars use it | `Regex.v` |
| `processor/parser/BasicParser.py`, `earley/*.py`, `tree_sort_heuristics/*.py`, `entity/ParseTreeNode.py` | `Earley.v` |
| `processor/semantic_composer/SemanticComposer.py`, `helper/VariableGenerator.py` | `Composer.v` |
| `processor/semantic_composer/optimizer/*.py` | `Optimizer.v` |
| the pipelines of `tests/integration` (parser, composer, executor in blocks) | `QuestionSystem.v` |
| `grammar/en_us_write.py` | `PropWriter.v` |
| rules of `tests/integration/chat80/read_grammar.py` and `tests/unit/Quantifier_test.py` | `FragmentModel.v` |
| sentences of `tests/integration/chat80/read_grammar.py`, `intents.pl`, `write_grammar.py`, the loop of enter and read_output | `TalkModel.v` |
| `format_table`, `format_cell` of `tests/integration/chat80/write_grammar.py` | `ReplyModel.v` |
| `tests/integration/cooper`: `CooperDB.py`, `CooperModule.py`, `inferences.pl`, both read grammars, `write_grammar.py`, the systems of `test.py` | `CooperModel.v` |
| `tests/integration/wikidata`: `WikidataModule.py`, `WikidataOutputBuffer.py`, `mapping.pl`, `intents.pl`, `read_grammar.py`, `write_grammar.py`, the system of `test.py` | `WikidataModel.v` |
| `tests/integration/sir`: the sentences about set inclusion, `intents.pl`, `inferences.pl`, `SIRDB.py`, `SIRModule.py`, `SIROutputBuffer.py`, `write_grammar.py` | `SirModel.v` |

## What is not modelled

* The log of the statistics of `core/Solver.py` (the counting is modelled in `Stats.v`), `cProfile` in `core/DialogTester.py`, the texts of
  exceptions except where a theorem is about them.
* The internals of `requests`, `pickle`, `statistics`, and of the database servers.
  `Sql.v` is a small SQL engine: names are case-sensitive, columns have no type affinity, rows come in
  insertion order, integers are unbounded and only the words of the subset are reserved.
* Collisions of `hash`: a hashed object is modelled by what is hashed.
* `str.lower`, `isspace` and `\w` outside 8-bit characters.  In the parser `re.match` is a
  parameter with hypotheses (`re_ok`, `patterns_ok`); `py_match` of `RegexProofs2.v`, on the matcher of
  `Regex.v`, meets them for patterns that compile (C79).  Not in `Regex.v`: counted and possessive
  repetitions, look-around, word boundaries, `^` after the start, numeric escapes, back references, flags.
* Rounding of floats; Python's recursion limit (a separate outcome, `OutOfFuel`).
* Functions in `sem`, `exec` and `dialog` are arbitrary, but without side effects.
* A `ResultIterator` as the result of an atom that is not the last one: Python goes on with the strings it
  yields, the model raises `TypeErr` (see the header of `Solver.v`).
* In the optimizer, a predicate that is a tuple holding a list has no relations (Python: `TypeError`).

## Trusted base

* Coq 8.16.1 kernel (and `vm_compute` for the computed witnesses).
* `Print Assumptions` is printed beneath every property theorem.  For each of them it prints
  "Closed under the global context": no axioms are used.  (`coqchk -o` over all loaded libraries also lists
  the entries `Coq.ssr.ssrunder.Under_rel.*`, which come with the tactics of the standard library and which no
  theorem depends on.)
* The correspondence between Python and the Gallina transcription (by reading; citations in comments).

## Layout

* `theories/*.v` model files, `*Proofs.v` proofs, `*Spec.v` independent specifications,
  `Prop*.v` the theorems per property with `Print Assumptions` and non-vacuity examples.
* `seeded/LOG.jsonl` the wrong programs that were tried, and the theorems that noticed.

## Per-property plan

| id | property | model / proof plan |
|---|---|---|
| C01 | Solving never loses or changes a binding | induction on fuel of the solver; relations arbitrary functions in the M monad |
| C02 | Solutions only bind variables that were asked for | same induction as C01, direct-argument variable set defined independently |
| C03 | A conjunction is solved exactly by chaining its atoms | chain relation (inductive) vs. result list, up to binding equality, for read-only worlds; big-step run relation (inductive, with states) vs. the nested loops for effectful atoms |
| C04 | Conjunctions have no duplicate solutions | invariant of the accumulate loop; refutation witness for one atom |
| C05 | Single-atom matching is exactly unification with the returned rows | independent `row_matches` specification; iff with membership in the result |
| C06 | Query functions receive the bound values | pointwise specification of the argument list |
| C07 | A predicate defined in several modules is the union of its definitions | fold over modules = dedupe of the concatenation |
| C08 | Row deduplication never drops a distinct row | injectivity of `py_repr` on data values via an unambiguous-prefix (parser) argument |
| C09 | A disjunction commits to its first alternative that has solutions | first-nonempty specification, also on the world (effects) |
| C10 | Conjunctive queries over tables return exactly the satisfying assignments | assignment semantics of conjunctive queries, soundness + completeness by induction on atoms |
| C11 | Atom order does not matter for table queries | corollary of C10 |
| C12 | Malformed queries are reported, not silently answered | case analysis |
| C13 | Inference is sound | least model as inductive predicate; induction on fuel |
| C14 | Inference is complete when it terminates | derivation induction + fuel monotonicity |
| C15 | Rules whose head variables stay unbound give no solution | witness + general lemma |
| C16 | The quantifier 'all' is universal over a non-empty range | loop invariant on the two nested loops |
| C17 | not / none / scoped decide solvability and bind nothing | case analysis through the solver |
| C18 | count and the numeric determiners count solutions | as C17 |
| C19 | sum, avg and percentage compute the stated aggregate over all solutions | fold invariants over Q/Z |
| C20 | arg_min / arg_max return a true optimum, the first one in solution order | fold invariant |
| C21 | find_all returns the distinct values in first-occurrence order | fold invariant / dedupe spec |
| C22 | equals, greater_than and less_than decide (and bind) as stated | case analysis |
| C23 | A bound variable as result argument is not checked | general theorem for a bound variable + witness pair |
| C24 | store writes exactly the bound atoms, in order | fold over writes; witness for the non-atomic case |
| C25 | destructure recovers the arguments of a quoted atom | induction on the structure list |
| C26 | Read-only queries leave all stored data unchanged | world-preservation as an invariant through the open recursion |
| C27 | Answers do not depend on how much stack is available | fuel monotonicity by induction |
| C29 | Hierarchical rules terminate with exactly the least model; left recursion never answers | rank induction on fuel for termination; for left recursion, induction on fuel that no run returns |
| C28 | A ResultIterator yields its announced number of items once | iteration as a state machine |
| C30 | The in-memory data source answers like a list of records | refinement to list of records over operation histories |
| C31 | Data values never enter the SQL text | non-interference of the text; placeholder count by induction |
| C32 | The Sqlite data source implements the select contract | SQL-subset AST semantics + refinement |
| C33 | The SPARQL result cache is transparent as long as writes complete | history induction with cache invariant |
| C34 | A crash while writing the SPARQL cache poisons that query | crash step leaving a truncated file; all later histories |
| C35 | SPARQL answers keep the bound values and fill the free ones | induction on columns |
| C36 | OrderedSet behaves as a set with insertion order | refinement over operation lists |
| C37 | CSV import inserts every data row once, in order | induction on rows |
| C39 | Text values in SPARQL queries are not escaped | literal reader of the SPARQL grammar; round trip and witness family |
| C42 | Sqlite writes are lost unless the application commits | induction on histories over the committed/current pair |
| C43 | SPARQL sources must not share a cache directory | two sources over one file map |
| C40 | with_context is active exactly during its body | sequence insert/solve/delete on the modelled sqlite tables |
| C97 | Started contexts last until they are ended | induction on the history, with the rows of both tables as invariant (PropOutput.v, PropTypes.v) |
| C41 | Output is consumed by reading it | sequence; witness for exception |
| C50 | FindOne commits to the first alternative that survives the rest of the pipeline | depth-first search specification |
| C51 | Error reporting of FindOne | general theorem + witness against the documentation |
| C52 | FindAll tries everything and reports the first error | loop invariant |
| C53 | FindAll leaves the last alternative as the current product | witness + general theorem |
| C54 | TryFirst only ever tries the first product | case analysis |
| C55 | Reporting a parse failure itself fails for some errors | theorem over all worlds |
| C56 | Each locale is tried in order and handled by its own processor | corollary of C50 |
| C57 | The first interpretation is final | corollary of C50 and the executor model |
| C60 | Whitespace normalisation | induction on text |
| C61 | Every parse tree is a derivation of the whole sentence | Earley invariant + extraction soundness |
| C62 | Every derivation is found | Earley completeness by induction on derivations |
| C63 | Chart construction terminates | finite state space measure |
| C64 | Tree extraction terminates for acyclic grammars | span/unit-depth measure; divergence for cyclic grammar (every fuel runs out) |
| C65 | Parsing does not change later parses | chart as function of the set of rules; idempotent delta rules |
| C66 | Parse errors classify the failure | case analysis |
| C67 | Parse trees are ordered by boost, then regexp count, then depth, stably | stable sort specification |
| C68 | Words match case-insensitively only for lower-case constants | induction on strings |
| C69 | A regexp constituent may be a proper prefix of the match | prefix characterisation + witness |
| C70 | Rules with identical syntax hide each other | chart invariant |
| C71 | Rule variants enumerate the optional parts | specification by keep/drop masks |
| C72 | The grammar index finds exactly the added rules | history induction |
| C73 | Grammar rule syntax round-trips | printer/parser round trip: layout lemma for the tokens, then recursive descent |
| C74 | Unknown characters in a rule are silently skipped | theorem + witness |
| C75 | learn_grammar_rule always raises | arity mismatch of the call |
| C76 | Inference rule syntax round-trips | printer/parser round trip |
| C77 | A zero cannot be written in a rule file | witness/general |
| C78 | Comments are transparent | token-level induction |
| C80 | Variables of different constituents do not clash | freshness invariant of the generator counter |
| C81 | Undeclared variables inside nested atom lists are captured | witness |
| C82 | Substituting bindings into atoms | structural induction |
| C83 | Template application splices the arguments | structural induction |
| C84 | Optimizer passes keep all atoms | permutation proofs |
| C85 | The optimizer preserves the answers of queries | via C10 and scoped; for first-order queries: the sort as a relation on formulas (atoms of known size move to the front), the isolation as a relation on groups, both shown to keep the meaning, then C44 on both queries |
| C86 | Isolation is unsound when the first atom leaves a variable unbound | witness by computation |
| C87 | SortByCost is greedy | selection-sort invariant |
| C90 | Generation picks the first applicable unused rule | loop characterisation |
| C91 | A used rule can be chosen again with a wrong binding | loop characterisation |
| C92 | Write grammars that call themselves do not end | induction on fuel |
| C93 | Grammars for reading and writing look at their own keys | corollary of the round trip, by induction on the grammar |
| C94 | Parsing a rule file always ends | measure: tokens, then level of the function |
| C95 | Importing rules is all or nothing | induction on the rules |
| C96 | Well-typed grammars compose every sentence | typing invariant along derivations |
| C98 | A question is answered with exactly what the database implies | composition of C61-C64, C96, C85 and C01 over the system model |
| C99 | Failures are reported to the reader of the output | buffer queries by induction on the records, then C66, C90, C98 |
| C44 | First-order queries and rules are answered exactly | induction on fuel over formulas; stability of the meaning under change of known variables; rank induction for existence, uniqueness and termination |
| C79 | Texts are split exactly as the regular expressions of the library say | backtracking matcher as an ordered list of match lengths; equality of the hand-written scanners with it by induction on the text; the list is sorted by the choices that lead to the matches; reading is inverse to showing for a syntax of patterns, in both directions |
| C88 | Which-questions in English mean what they say | typing of the rules by phrases with their first-order meanings (C96), truth of the phrases by induction, derivations for completeness (C62), C98; phrases satisfy the condition of C85 by induction |
| C45 | A learned rule holds from then on | substitution lemma for the first-order meaning (by induction on formulas), then C44 |
| C38 | Answers depend only on what the query mentions | two runs in lockstep (relational induction on fuel) over models that serve the same predicates |
| C46 | A conversation in English is answered right | sentences as a further layer over the phrases of C88; run of the intent rules against the core module and the buffer; generation from the buffer; induction on the conversation with C65 for the state of the grammar; with the optimizer by showing that the queries of all sentences may be reordered (C85) |
| C48 | Logging changes the log and nothing else | relational parametricity of the pipeline model between the runs with products as values, with a record of events, and with objects and a log |
| C47 | A dialog test passes just when the replies are those expected | induction over the tests with C48; the English part from C46 |
| C58 | The data sources are interchangeable | the select text through the driver is that of Sqlite; then C30 and C32 over the same records |
| C89 | The query optimizer only fails on sizes that do not fit | induction on the depth of the composition; the resolvers are moved without changing which atoms occur |
| C49 | A SPARQL data source selects the facts of the graph | a lexer as a state machine that reads the query text piece by piece; then the grammar and the solutions of one triple pattern |
| C59 | A system that is taught set inclusion answers right | reading: all derivations of the texts by inversion over the grammar (C61, C62, C79); running: the recursion of the rules as a bounded search over the facts, equal to the transitive closure where it ends; walks longer than the number of facts pass a circle (pigeonhole); induction on the dialog |
| C100 | Recursive rules are answered just when their calls descend | calls as predicates with known arguments; induction on fuel with the level as bound for the ends, induction on fuel over the prefix of the body for the endless ones; the longest walk in a table without a circle as level, by the pigeonhole principle |
| C101 | A CSV file means its rows | the reader character by character over the whole text instead of line by line; induction on the described table; every text has a table by taking cells and records off its front |
| C102 | A printed parse tree tells which tree it is | prefix-freeness of both texts by induction on the tree: what comes after a subtree never begins with its indent; the trees of the parser by C61 |
| C103 | A system that is taught facts and rules answers what follows, in three truth values | induction on the fuel with the rank of a quality as bound: the solver gives a truth value just when it follows; then the sentence atom by atom, the buffer growing by one truth value per solution; lessons by the effect of one insert and one learn_rule on the state invariant; from the texts: grammars whose rules are words, free words and phrases are read word by word (WordReading), the shapes of a sentence are enumerated from the kinds of its words and the one with the fewest free words is the first tree; composition and optimizer by computation on the shape with symbolic words and variable numbers; induction on both dialogs |
| C104 | Places of birth are looked up right | each select of the module by the exact answer theorem of the endpoint (C49); the solver atom by atom with an invariant on the reports written so far, until an exception or the end; parsing by completeness and inversion of all derivations; the dialog by induction with the reports left as state |
| C105 | Exactly the texts in the notation are grammar rules | an inductive grammar of token lists; soundness by following the parser, completeness by induction on the derivation; tokens that start with a quote also end with it, by induction on the text; the fuel suffices since every part takes a token |
| C106 | The replies to intents are as documented | the rule of each intent is run symbolically up to the output buffer (ReplyProofs.v); the write rules are then followed; sorting of rows is refined to an insertion sort on texts, proved a stable sort |
| C107 | Only texts in the notation are rule files, and the rules are as written | an inductive grammar of token lists with what they stand for; one induction on the fuel for the nine parser functions; counting by mutual induction on derivations |
| C108 | Keeping statistics changes no answer | a relation between the effects with and without statistics, kept by bind, loops and every query function; induction on the recursion limit; counts by induction on the atoms |
