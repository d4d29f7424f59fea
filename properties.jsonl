{"id": "C01", "title": "Solving never loses or changes a binding", "statement": "Every binding returned by Solver.solve(atoms, binding) contains every entry of the binding it was given, with the same value.", "quantifier": "all atom lists, all input bindings, all module sets with arbitrary (also stateful or failing) query functions, all recursion depths", "why_tests_cant": "user modules are arbitrary Python functions; the claim is about all of them", "anchors": ["richard/core/Solver.py:Solver.solve", "richard/core/Solver.py:create_solve_single_results"]}
{"id": "C02", "title": "Solutions only bind variables that were asked for", "statement": "A binding returned by Solver.solve(atoms, binding) has no keys other than those of the input binding and the variables that occur as direct arguments of the atoms (or of atoms inside an inline disjunction). Variables inside list arguments (not, scoped, find_all, ...) never leak out.", "quantifier": "all atom lists, bindings and module sets", "why_tests_cant": "ranges over unboundedly many inputs; a test only samples some of them", "anchors": ["richard/core/Solver.py:create_solve_single_results", "richard/core/Solver.py:solve_disjunction"]}
{"id": "C03", "title": "A conjunction is solved exactly by chaining its atoms", "statement": "The result of solve([a1..an], b) is, up to equality of bindings, exactly the set of bindings reachable by solving a1 from b, a2 from each of these results, and so on: no chain is lost, nothing is invented. When atoms have effects (they may store, add rules, change the dialog), these happen depth first: an atom is done once for each way of doing the atoms before it, in the order of their solutions and in the state reached by then; the result lists the different results in the order of their first occurrence, and the first exception ends the run with the effects so far.", "quantifier": "all atom lists of any length, all bindings, all module sets; read-only queries for the first sentence", "why_tests_cant": "number of atoms and of intermediate results is unbounded", "anchors": ["richard/core/Solver.py:Solver.solve"]}
{"id": "C04", "title": "Conjunctions have no duplicate solutions", "statement": "solve(atoms, b) with two or more atoms never returns two equal bindings. (For exactly one atom this is not guaranteed: duplicates are returned when a query function returns rows that differ only in a bound argument.)", "quantifier": "all atom lists, bindings, module sets", "why_tests_cant": "ranges over unboundedly many inputs; a test only samples some of them", "anchors": ["richard/core/Solver.py:Solver.solve", "richard/core/Solver.py:solve_single"]}
{"id": "C05", "title": "Single-atom matching is exactly unification with the returned rows", "statement": "For an atom p(args), a binding r is a solution iff some row returned by some relation named p agrees with every constant argument (None in the row matches anything), gives the same value to repeated unbound variables, and r is the input binding extended with the row's values for the unbound variables.", "quantifier": "all atoms, bindings, rows, modules", "why_tests_cant": "ranges over unboundedly many inputs; a test only samples some of them", "anchors": ["richard/core/Solver.py:create_solve_single_results", "richard/core/Solver.py:find_relation_values"]}
{"id": "C06", "title": "Query functions receive the bound values", "statement": "The value list a query function receives has, per argument, the bound value for a bound variable, None for an unbound variable and the argument itself otherwise.", "quantifier": "all argument lists and bindings", "why_tests_cant": "ranges over unboundedly many inputs; a test only samples some of them", "anchors": ["richard/core/Solver.py:model_values_2_db_values"]}
{"id": "C07", "title": "A predicate defined in several modules is the union of its definitions", "statement": "The rows used for a predicate are those of all modules that define it, in module order (core first), each distinct row once; a predicate defined nowhere raises an error.", "quantifier": "all lists of modules and rows", "why_tests_cant": "ranges over unboundedly many inputs; a test only samples some of them", "anchors": ["richard/core/Solver.py:find_relation_values", "richard/core/Model.py:find_relations"]}
{"id": "C08", "title": "Row deduplication never drops a distinct row", "statement": "Rows are deduplicated by their printed form; two rows made of None, booleans, integers, strings, and nested lists/tuples of these with the same printed form are the same row, so no distinct row is lost. (Rows that contain Variables can collide.)", "quantifier": "all rows of the stated kind, all string contents including quotes and escapes", "why_tests_cant": "needs injectivity of repr over all strings and nestings", "anchors": ["richard/core/Solver.py:find_relation_values"]}
{"id": "C09", "title": "A disjunction commits to its first alternative that has solutions", "statement": "('$disjunction', alternatives) yields exactly the solutions of the first alternative that has any, and none when no alternative has one; later alternatives are not executed.", "quantifier": "all alternative lists, bindings, module sets", "why_tests_cant": "ranges over unboundedly many inputs; a test only samples some of them", "anchors": ["richard/core/Solver.py:solve_disjunction"]}
{"id": "C10", "title": "Conjunctive queries over tables return exactly the satisfying assignments", "statement": "For relations backed by tables (select contract), solve(atoms, b) returns, for each assignment of the query variables that extends b and puts every atom in its table, one binding, and nothing else. It terminates without error.", "quantifier": "all tables, all conjunctions of any length, all repeated-variable/constant patterns, all input bindings", "why_tests_cant": "ranges over unboundedly many inputs; a test only samples some of them", "anchors": ["richard/core/Solver.py:Solver.solve", "richard/module/SimpleMemoryModule.py:query", "richard/interface/SomeDataSource.py:select"]}
{"id": "C11", "title": "Atom order does not matter for table queries", "statement": "Permuting the atoms of a conjunctive query over tables does not change its set of solutions.", "quantifier": "all permutations of all queries over all tables", "why_tests_cant": "ranges over unboundedly many inputs; a test only samples some of them", "anchors": ["richard/core/Solver.py:Solver.solve"]}
{"id": "C12", "title": "Malformed queries are reported, not silently answered", "statement": "Solving something that is not a list, an atom with an unknown predicate, or an atom whose relation returns a first row of the wrong arity raises an exception whose message names the value or the predicate. (Later rows are not checked: a second row that is too long is used silently.)", "quantifier": "all non-list inputs, all unknown predicates, all arities", "why_tests_cant": "ranges over unboundedly many inputs; a test only samples some of them", "anchors": ["richard/core/Solver.py:Solver.solve", "richard/core/Solver.py:solve_single"]}
{"id": "C13", "title": "Inference is sound", "statement": "With learned facts and rules (Datalog: flat arguments) and tables, every solution of a query is a logical consequence: each instantiated atom is in the least model of the rules.", "quantifier": "all rule bases, including recursive ones; all queries; all bindings with any variable names, clashing or not", "why_tests_cant": "proof depth is unbounded; variable-name clashes between rules and callers are endless", "anchors": ["richard/module/InferenceModule.py:handle_rule", "richard/module/InferenceModule.py:solve_rule", "richard/core/Solver.py:Solver.solve"]}
{"id": "C14", "title": "Inference is complete when it terminates", "statement": "If a query over range-restricted Datalog rules terminates normally, every logical consequence that matches the query is among the solutions.", "quantifier": "all range-restricted rule bases, queries, bindings", "why_tests_cant": "proof depth is unbounded", "anchors": ["richard/module/InferenceModule.py:solve_rule", "richard/core/Solver.py:Solver.solve"]}
{"id": "C15", "title": "Rules whose head variables stay unbound give no solution", "statement": "A rule such as r(X, X). queried with unbound variables yields no results (it is not range-restricted), so completeness fails for such rules; and when one solution leaves a head variable unbound, all solutions of that rule are dropped.", "quantifier": "all such rules", "why_tests_cant": "ranges over unboundedly many inputs; a test only samples some of them", "anchors": ["richard/module/InferenceModule.py:solve_rule"]}
{"id": "C16", "title": "The quantifier 'all' is universal over a non-empty range", "statement": "('all', X, range, body) succeeds iff the range has at least one value and the body is solvable for every value of X in the range; then it yields each of these values once. With an empty range it fails (no vacuous truth).", "quantifier": "all ranges, bodies, bindings, modules", "why_tests_cant": "ranges over unboundedly many inputs; a test only samples some of them", "anchors": ["richard/module/CoreModule.py:determiner_all"]}
{"id": "C17", "title": "not / none / scoped decide solvability and bind nothing", "statement": "('not', body) and ('none', body) succeed iff body has no solution, ('scoped', body) iff it has one; on success the result is exactly the input binding.", "quantifier": "all bodies, bindings, modules", "why_tests_cant": "ranges over unboundedly many inputs; a test only samples some of them", "anchors": ["richard/module/CoreModule.py:not_function", "richard/module/CoreModule.py:determiner_none", "richard/module/CoreModule.py:scoped"]}
{"id": "C18", "title": "count and the numeric determiners count solutions", "statement": "('count', N, body) binds N to the number of solutions of body (also when they are represented by a ResultIterator); det_equals / det_greater_than / det_less_than succeed iff that number compares accordingly.", "quantifier": "all bodies, numbers, bindings, modules", "why_tests_cant": "ranges over unboundedly many inputs; a test only samples some of them", "anchors": ["richard/module/CoreModule.py:count", "richard/module/CoreModule.py:determiner_equals", "richard/module/CoreModule.py:determiner_greater_than", "richard/module/CoreModule.py:determiner_less_than"]}
{"id": "C19", "title": "sum, avg and percentage compute the stated aggregate over all solutions", "statement": "sum is the sum of the element variable over all solutions; avg is that sum divided by the number of solutions and fails when there are none; percentage is 100 * #nominator / #denominator and fails when the denominator is empty.", "quantifier": "all bodies, all numbers of solutions and values", "why_tests_cant": "ranges over unboundedly many inputs; a test only samples some of them", "anchors": ["richard/module/CoreModule.py:sum", "richard/module/CoreModule.py:avg", "richard/module/CoreModule.py:percentage"]}
{"id": "C20", "title": "arg_min / arg_max return a true optimum, the first one in solution order", "statement": "The returned value is minimal (maximal) over all solutions, the returned entity belongs to that solution, and among equals the first wins; no solutions gives failure.", "quantifier": "all solution lists of any length", "why_tests_cant": "ranges over unboundedly many inputs; a test only samples some of them", "anchors": ["richard/module/CoreModule.py:arg_min", "richard/module/CoreModule.py:arg_max"]}
{"id": "C21", "title": "find_all returns the distinct values in first-occurrence order", "statement": "find_all collects, for one variable or for a list of variables, each distinct (combination of) value(s) over all solutions exactly once, in order of first occurrence; find_one returns the first of these and fails when there is none.", "quantifier": "all bodies and variable lists", "why_tests_cant": "ranges over unboundedly many inputs; a test only samples some of them", "anchors": ["richard/module/CoreModule.py:find_all", "richard/module/CoreModule.py:find_one"]}
{"id": "C22", "title": "equals, greater_than and less_than decide (and bind) as stated", "statement": "equals succeeds iff both values are equal, binds the unbound side to the other value, is symmetric, and raises when both are unbound; greater_than/less_than decide the strict order (numbers by value, texts and sequences by their first difference), raise a TypeError on values of different kinds and an error on unbound arguments.", "quantifier": "all values, bindings", "why_tests_cant": "ranges over unboundedly many inputs; a test only samples some of them", "anchors": ["richard/module/CoreModule.py:equals", "richard/module/CoreModule.py:greater_than", "richard/module/CoreModule.py:less_than"]}
{"id": "C23", "title": "A bound variable as result argument is not checked", "statement": "Result arguments of core predicates (count, let, sum, multiply, ...) are compared when they are constants but not when they are bound variables: ('count', 3, body) fails when the count is 5, while ('count', X, body) with X bound to 3 succeeds with X unchanged. Replacing a variable by its value is therefore not semantics preserving. What multiply computes is the product of two numbers, or the text, tuple or list repeated a number of times; anything else is a TypeError.", "quantifier": "all bodies, counts, bound values", "why_tests_cant": "ranges over unboundedly many inputs; a test only samples some of them", "anchors": ["richard/core/Solver.py:create_solve_single_results", "richard/module/CoreModule.py:count", "richard/module/CoreModule.py:let"]}
{"id": "C24", "title": "store writes exactly the bound atoms, in order", "statement": "('store', atoms) replaces bound variables by their values and writes each atom once to every module that has a write function for its predicate, in order, and to nothing else; when one write fails the earlier ones stay (no rollback).", "quantifier": "all atom lists, bindings, buffers", "why_tests_cant": "ranges over unboundedly many inputs; a test only samples some of them", "anchors": ["richard/module/CoreModule.py:store", "richard/core/Solver.py:write_atom", "richard/module/SimpleMemoryModule.py:write"]}
{"id": "C25", "title": "destructure recovers the arguments of a quoted atom", "statement": "('destructure', [atom], pred, args...) binds the variables to the terms of atom when lengths and constants agree. On a mismatch it does not fail: it returns a row of Nones.", "quantifier": "all atoms and structures", "why_tests_cant": "ranges over unboundedly many inputs; a test only samples some of them", "anchors": ["richard/module/CoreModule.py:destructure"]}
{"id": "C26", "title": "Read-only queries leave all stored data unchanged", "statement": "Solving any query built from tables, inference rules and the read-only core predicates changes neither the data sources, nor the rule base, nor the output buffer.", "quantifier": "all such queries, nested to any depth, any world state", "why_tests_cant": "ranges over unboundedly many inputs; a test only samples some of them", "anchors": ["richard/core/Solver.py:Solver.solve", "richard/module/CoreModule.py", "richard/module/InferenceModule.py"]}
{"id": "C27", "title": "Answers do not depend on how much stack is available", "statement": "If a query finishes with some recursion limit it gives the identical answer and identical effects with every larger limit.", "quantifier": "all queries, all limits, all core/inference modules", "why_tests_cant": "ranges over unboundedly many inputs; a test only samples some of them", "anchors": ["richard/core/Solver.py:Solver.solve", "richard/module/InferenceModule.py:solve_rule"]}
{"id": "C29", "title": "Hierarchical rules terminate with exactly the least model; left recursion never answers", "statement": "If the predicates in rule bodies are lower in some ranking than the head's predicate, every query terminates (recursion depth at most the rank) and returns exactly the answers of the least model. A rule whose first body atom asks for the rule's own predicate with variables never produces an answer, at any stack size.", "quantifier": "all range-restricted hierarchical rule sets, tables and queries; all left-recursive rules", "why_tests_cant": "ranges over unboundedly many inputs; a test only samples some of them", "anchors": ["richard/module/InferenceModule.py:handle_rule", "richard/core/Solver.py"]}
{"id": "C28", "title": "A ResultIterator yields its announced number of items once", "statement": "len() equals the number of items the iterator yields, for every number; a second iteration yields nothing; a relation returning one cannot be combined with another relation of the same name.", "quantifier": "all numbers", "why_tests_cant": "ranges over unboundedly many inputs; a test only samples some of them", "anchors": ["richard/entity/ResultIterator.py", "richard/core/Solver.py:find_relation_values"]}
{"id": "C30", "title": "The in-memory data source answers like a list of records", "statement": "After any history of inserts and clears, select(table, columns, values) returns, in insertion order, the requested columns of exactly those records inserted into that table since the last clear that match all non-None values; other tables are unaffected. (Deviation: a record inserted with a None value lacks that column, and every select of that column then raises, even one with a value for that column, unless a value for another column excludes the record.)", "quantifier": "all histories of operations, tables, columns, values", "why_tests_cant": "histories are unbounded", "anchors": ["richard/data_source/SimpleDataSource.py"]}
{"id": "C31", "title": "Data values never enter the SQL text", "statement": "The SQL text of select/insert/delete depends only on table, columns and on which values are None, never on the values; the number and order of placeholders equals that of the passed parameters. This is for plain names of tables and columns: those that begin with no digit, consist of letters, digits and underscores, and are no words of SQL.", "quantifier": "all tables, columns, value lists of any content (injection strings)", "why_tests_cant": "injection payloads are endless", "anchors": ["richard/data_source/Sqlite3DataSource.py", "richard/data_source/MySqlDataSource.py", "richard/data_source/PsycoPg2DataSource.py", "richard/data_source/PsycoPg3DataSource.py"]}
{"id": "C32", "title": "The Sqlite data source implements the select contract", "statement": "The generated statements, evaluated by the SQL subset semantics, return exactly the requested columns of the rows that match every non-None value; insert adds one row; delete removes exactly the matching rows. For every history of operations this behaves like a list of rows. (A None in a delete matches nothing; an insert is silently ignored just when there is a row with the same values, none of them NULL, in all columns of a uniqueness constraint.)", "quantifier": "all histories, tables, values", "why_tests_cant": "ranges over unboundedly many inputs; a test only samples some of them", "anchors": ["richard/data_source/Sqlite3DataSource.py"]}
{"id": "C33", "title": "The SPARQL result cache is transparent as long as writes complete", "statement": "With a result cache, for every sequence of selects, each answer equals the answer without cache given at the first time that query was asked, and each distinct query goes to the endpoint at most once. A refusal of the endpoint (403, 429, 400) raises with its reason and is not remembered.", "quantifier": "all request histories, all endpoints", "why_tests_cant": "ranges over unboundedly many inputs; a test only samples some of them", "anchors": ["richard/data_source/SparqlDataSource.py:select"]}
{"id": "C34", "title": "A crash while writing the SPARQL cache poisons that query", "statement": "If the process dies between opening and completing the cache file, later selects of that query raise instead of re-querying (only OSError is caught). Queries with other keys are unaffected.", "quantifier": "all crash points during the write, all later histories", "why_tests_cant": "crash points cannot be enumerated by unit tests", "anchors": ["richard/data_source/SparqlDataSource.py:select"]}
{"id": "C35", "title": "SPARQL answers keep the bound values and fill the free ones", "statement": "Each result row has the given value in every bound position and the endpoint's value for the matching query variable in every free position. The query text is determined: it selects exactly the free positions' variables, writes an id as an IRI, a constant as it is and any other text as a literal in the language of the source, and restricts free text positions to that language.", "quantifier": "all values, columns and responses", "why_tests_cant": "ranges over unboundedly many inputs; a test only samples some of them", "anchors": ["richard/data_source/SparqlDataSource.py:prepare_results", "richard/data_source/SparqlDataSource.py:create_query"]}
{"id": "C36", "title": "OrderedSet behaves as a set with insertion order", "statement": "For every sequence of add/discard/clear, membership is set membership, there are no duplicates, and iteration follows the order of first insertion since the last removal; s[i] is the i-th element of that order, an IndexError beyond the last one, and a ValueError for every negative i.", "quantifier": "all operation sequences", "why_tests_cant": "ranges over unboundedly many inputs; a test only samples some of them", "anchors": ["richard/type/OrderedSet.py"]}
{"id": "C37", "title": "CSV import inserts every data row once, in order", "statement": "import_table_from_file inserts, for every non-empty row after the header, exactly one record pairing headers with the row's elements; elements without a header are dropped. (Deviation: a row shorter than the header is passed with fewer values than columns, which aborts an import into Sqlite.)", "quantifier": "all files", "why_tests_cant": "ranges over unboundedly many inputs; a test only samples some of them", "anchors": ["richard/data_source/CsvImporter.py"]}
{"id": "C39", "title": "Text values in SPARQL queries are not escaped", "statement": "A text value without quotes and backslashes is read by the endpoint as exactly that text. A value with a quote is not escaped: the literal ends at its first quote and the rest of the value becomes part of the query.", "quantifier": "all text values, languages", "why_tests_cant": "ranges over unboundedly many inputs; a test only samples some of them", "anchors": ["richard/data_source/SparqlDataSource.py:prepare_term"]}
{"id": "C42", "title": "Sqlite writes are lost unless the application commits", "statement": "The data source never commits: after any history of inserts and deletes, reopening the database shows the state of the last commit by the application, and exactly that.", "quantifier": "all histories, all crash points", "why_tests_cant": "crash points and histories are unbounded", "anchors": ["richard/data_source/Sqlite3DataSource.py:insert", "richard/data_source/Sqlite3DataSource.py:delete"]}
{"id": "C43", "title": "SPARQL sources must not share a cache directory", "statement": "The cache key has neither the url nor the language: two sources with the same cache directory answer each other's queries. Sources with different directories are independent.", "quantifier": "all pairs of sources, queries", "why_tests_cant": "ranges over unboundedly many inputs; a test only samples some of them", "anchors": ["richard/data_source/SparqlDataSource.py:select"]}
{"id": "C40", "title": "with_context is active exactly during its body", "statement": "When the body finishes normally, the context is visible while the body is solved and afterwards no record of that context remains; other contexts are untouched. (It also removes an outer context with the same name; and when the body raises, the context stays active.)", "quantifier": "all bodies, names, context states", "why_tests_cant": "ranges over unboundedly many inputs; a test only samples some of them", "anchors": ["richard/module/BasicDialogContext.py:with_context"]}
{"id": "C97", "title": "Started contexts last until they are ended", "statement": "After clear and any history of start_context, end_context and clear, every step of which succeeds, context(name) is true exactly when the last of these that concerns the name is a start_context. Types of entities that are stored in between are found again until all is cleared, and storing them does not disturb the contexts, nor the other way round.", "quantifier": "all histories, names, bindings", "why_tests_cant": "histories are unbounded", "anchors": ["richard/module/BasicDialogContext.py:start_context", "richard/module/BasicDialogContext.py:end_context", "richard/module/BasicDialogContext.py:clear"]}
{"id": "C41", "title": "Output is consumed by reading it", "statement": "After System.read_output succeeds the output buffer is empty, so the next answer never contains facts of an earlier one. When generation raises, the buffer is not cleared.", "quantifier": "all buffers, write grammars", "why_tests_cant": "ranges over unboundedly many inputs; a test only samples some of them", "anchors": ["richard/core/BasicGenerator.py:generate_output", "richard/module/BasicOutputBuffer.py:clear"]}
{"id": "C50", "title": "FindOne commits to the first alternative that survives the rest of the pipeline", "statement": "A pipeline of FindOne blocks succeeds iff some choice of one product per processor succeeds; it stops at the first such choice in depth-first product order, and the request's current products are exactly that choice.", "quantifier": "all pipelines of any length, all processors, all numbers of products", "why_tests_cant": "ranges over unboundedly many inputs; a test only samples some of them", "anchors": ["richard/block/FindOne.py", "richard/core/System.py:enter"]}
{"id": "C51", "title": "Error reporting of FindOne", "statement": "When all alternatives fail FindOne reports an error produced by one of them - the last one, not the first one as documented.", "quantifier": "all processors, products", "why_tests_cant": "ranges over unboundedly many inputs; a test only samples some of them", "anchors": ["richard/block/FindOne.py"]}
{"id": "C52", "title": "FindAll tries everything and reports the first error", "statement": "FindAll processes every product in order, succeeds iff at least one succeeds (or there are none), otherwise reports the first error; the alternative products it records are all products in order, accumulated over calls.", "quantifier": "all pipelines, processors", "why_tests_cant": "ranges over unboundedly many inputs; a test only samples some of them", "anchors": ["richard/block/FindAll.py"]}
{"id": "C53", "title": "FindAll leaves the last alternative as the current product", "statement": "After a successful FindAll the current product (and System.enter's return value) is the last alternative, which may be one that failed.", "quantifier": "all processors", "why_tests_cant": "ranges over unboundedly many inputs; a test only samples some of them", "anchors": ["richard/block/FindAll.py", "richard/core/System.py:enter"]}
{"id": "C54", "title": "TryFirst only ever tries the first product", "statement": "TryFirst's outcome is that of its first product; other products are never passed on.", "quantifier": "all processors", "why_tests_cant": "ranges over unboundedly many inputs; a test only samples some of them", "anchors": ["richard/block/TryFirst.py"]}
{"id": "C55", "title": "Reporting a parse failure itself fails for some errors", "statement": "System.enter stores output_<error_type>; with the basic output buffer this works for unknown_word and the other types it has a relation for (type, value, value_with_unit, table, list, name_not_found) but raises for not_understood and no_sentence, after output_type has already been stored.", "quantifier": "all requests that end in these errors", "why_tests_cant": "ranges over unboundedly many inputs; a test only samples some of them", "anchors": ["richard/core/System.py:enter", "richard/module/BasicOutputBuffer.py"]}
{"id": "C56", "title": "Each locale is tried in order and handled by its own processor", "statement": "With LanguageSelector + Multilingual, the processor used is the one registered for the current locale; an unregistered locale raises; a FindOne over locales yields the first locale whose processing succeeds.", "quantifier": "all locale lists, processor maps", "why_tests_cant": "ranges over unboundedly many inputs; a test only samples some of them", "anchors": ["richard/processor/language_selector/LanguageSelector.py", "richard/processor/language_selector/Multilingual.py"]}
{"id": "C57", "title": "The first interpretation is final", "statement": "The executors never reject an interpretation: they return exactly one product whatever the solutions are, also none, so with FindOne the first interpretation that parsing and composing accept is final, even when it has no solutions and a later one has.", "quantifier": "all interpretations and worlds", "why_tests_cant": "ranges over unboundedly many inputs; a test only samples some of them", "anchors": ["richard/processor/semantic_executor/AtomExecutor.py", "richard/core/BlockResult.py", "richard/block/FindOne.py"]}
{"id": "C60", "title": "Whitespace normalisation", "statement": "The parser sees the text with every maximal whitespace run (tab, line feed, vertical tab, form feed, carriage return, the separators 28 to 31, space, next line, no-break space) replaced by one space: the result contains no two adjacent whitespace characters and no whitespace other than space, non-whitespace is untouched, and normalising twice changes nothing.", "quantifier": "all texts", "why_tests_cant": "ranges over unboundedly many inputs; a test only samples some of them", "anchors": ["richard/processor/parser/BasicParser.py:process"]}
{"id": "C61", "title": "Every parse tree is a derivation of the whole sentence", "statement": "Each tree the parser returns has root s, every inner node's children match the consequents of a grammar rule for that node, and the leaves spell the (normalised) text up to letter case.", "quantifier": "all grammars, texts, regexps", "why_tests_cant": "ranges over unboundedly many inputs; a test only samples some of them", "anchors": ["richard/processor/parser/earley/EarleyParser.py", "richard/processor/parser/earley/tree_extract.py"]}
{"id": "C62", "title": "Every derivation is found", "statement": "For grammars without empty rules/words, if parsing terminates, every derivation of the whole text from s is among the returned trees (up to rules that are syntactically identical).", "quantifier": "all such grammars, all texts, all ambiguity", "why_tests_cant": "ranges over unboundedly many inputs; a test only samples some of them", "anchors": ["richard/processor/parser/earley/EarleyParser.py", "richard/processor/parser/earley/tree_extract.py"]}
{"id": "C63", "title": "Chart construction terminates", "statement": "Building the chart ends for every grammar (also left-recursive, cyclic or with empty rules) and every text: in a chart, or in a RuntimeError (a dict that grows while it is iterated), the latter only when the grammar has empty rules or words. (A pattern that cannot be compiled raises re.error.)", "quantifier": "all grammars whose regular expressions compile, all texts", "why_tests_cant": "non-termination cannot be observed by a test", "anchors": ["richard/processor/parser/earley/EarleyParser.py:buildChart"]}
{"id": "C64", "title": "Tree extraction terminates for acyclic grammars", "statement": "Extraction terminates when the grammar has no empty constituents and no unit-rule cycles; with a unit cycle such as s -> s it recurses forever.", "quantifier": "all grammars, texts", "why_tests_cant": "non-termination", "anchors": ["richard/processor/parser/earley/tree_extract.py"]}
{"id": "C65", "title": "Parsing does not change later parses", "statement": "Although every parse adds delta rules to the grammar, any number of earlier parses does not change the result of parsing a text.", "quantifier": "all grammars, all parse histories", "why_tests_cant": "ranges over unboundedly many inputs; a test only samples some of them", "anchors": ["richard/processor/parser/earley/EarleyParser.py:buildChart"]}
{"id": "C66", "title": "Parse errors classify the failure", "statement": "With no tree, the error is unknown_word with the text from just after the furthest completed constituent if some text remains, else no_sentence iff the text is empty, else not_understood; with a tree there is no error.", "quantifier": "all grammars, texts", "why_tests_cant": "ranges over unboundedly many inputs; a test only samples some of them", "anchors": ["richard/processor/parser/earley/EarleyParser.py:parse", "richard/processor/parser/earley/unknown_word.py"]}
{"id": "C67", "title": "Parse trees are ordered by boost, then regexp count, then depth, stably", "statement": "The product order is a stable permutation of the parser's trees sorted by descending total boost, then ascending number of regexp nodes, then descending depth.", "quantifier": "all tree lists", "why_tests_cant": "ranges over unboundedly many inputs; a test only samples some of them", "anchors": ["richard/processor/parser/tree_sort_heuristics/BasicParseTreeSortHeuristics.py"]}
{"id": "C68", "title": "Words match case-insensitively only for lower-case constants", "statement": "A word constant matches the text regardless of the text's case iff it is lower case itself; a constant containing an upper-case letter (among the 8-bit characters: A to Z and the accented capitals) never matches any text.", "quantifier": "all texts, constants", "why_tests_cant": "ranges over unboundedly many inputs; a test only samples some of them", "anchors": ["richard/processor/parser/earley/EarleyParser.py:read_word"]}
{"id": "C69", "title": "A regexp constituent may be a proper prefix of the match", "statement": "A regexp leaf is a non-empty prefix of the text matched by the regexp; the prefix itself need not match the regexp.", "quantifier": "all regexps, texts", "why_tests_cant": "ranges over unboundedly many inputs; a test only samples some of them", "anchors": ["richard/processor/parser/earley/EarleyParser.py:scan"]}
{"id": "C70", "title": "Rules with identical syntax hide each other", "statement": "Of several grammar rules with the same antecedent and consequents (including variable names) only the first one is ever used in parse trees, even when their semantics differ.", "quantifier": "all grammars", "why_tests_cant": "ranges over unboundedly many inputs; a test only samples some of them", "anchors": ["richard/processor/parser/earley/entity/Chart.py:enqueue", "richard/processor/parser/earley/entity/ChartState.py"]}
{"id": "C71", "title": "Rule variants enumerate the optional parts", "statement": "The variants of a rule are exactly the sequences obtained by keeping or dropping each optional constituent, where an optional word takes its adjacent separator with it; their order starts with the full rule.", "quantifier": "all rules", "why_tests_cant": "ranges over unboundedly many inputs; a test only samples some of them", "anchors": ["richard/entity/GrammarRules.py:create_rule_variants"]}
{"id": "C72", "title": "The grammar index finds exactly the added rules", "statement": "find_rules(category, arity) returns the variants of exactly the rules added with that category and arity, in order of addition.", "quantifier": "all add histories", "why_tests_cant": "ranges over unboundedly many inputs; a test only samples some of them", "anchors": ["richard/entity/GrammarRules.py"]}
{"id": "C73", "title": "Grammar rule syntax round-trips", "statement": "Printing a rule in the documented notation and parsing it gives back the same antecedent, consequents, optional flags and separators. Exception: a word or regexp that ends with a backslash cannot be written, since its closing quote may be taken for an escaped one.", "quantifier": "all well-formed rules, all word and regexp contents incl. quotes", "why_tests_cant": "ranges over unboundedly many inputs; a test only samples some of them", "anchors": ["richard/processor/parser/helper/SimpleGrammarRulesParser.py:parse_syntax"]}
{"id": "C74", "title": "Unknown characters in a rule are silently skipped", "statement": "Characters that start no token are ignored anywhere in a syn string instead of being reported.", "quantifier": "all rules, all such characters", "why_tests_cant": "ranges over unboundedly many inputs; a test only samples some of them", "anchors": ["richard/processor/parser/helper/SimpleGrammarRulesParser.py"]}
{"id": "C75", "title": "learn_grammar_rule always raises", "statement": "The predicate learn_grammar_rule can never succeed: it calls the rule parser with a missing argument.", "quantifier": "all arguments", "why_tests_cant": "ranges over unboundedly many inputs; a test only samples some of them", "anchors": ["richard/module/GrammarModule.py"]}
{"id": "C76", "title": "Inference rule syntax round-trips", "statement": "Printing facts and rules (texts, positive integers, variables, nested atom lists, disjunctions of two or more alternatives) and parsing the text gives back the same rules. More generally, any layout of well-formed rules is read as these rules: either kind of quotes, leading zeros, decimal fractions, extra brackets around lists of atoms, comments anywhere. (Deviations: a disjunction with one alternative is read as brackets; brackets at the start of a body must be around the whole of it; a text that ends with a backslash cannot be written.)", "quantifier": "all such rules and layouts", "why_tests_cant": "ranges over unboundedly many inputs; a test only samples some of them", "anchors": ["richard/module/helper/SimpleInferenceRuleParser.py"]}
{"id": "C77", "title": "A zero cannot be written in a rule file", "statement": "No argument in a parsed rule is zero or empty, at any depth: a file with a zero (0, 0.0) anywhere other than as a predicate is rejected as a whole, because the parsed term is falsy. (Deviation: an empty text or a minus sign is not rejected but silently dropped: p('') is read as p() and p(-5) as p(5).)", "quantifier": "all texts", "why_tests_cant": "ranges over unboundedly many inputs; a test only samples some of them", "anchors": ["richard/module/helper/SimpleInferenceRuleParser.py:parse_simple_atom"]}
{"id": "C78", "title": "Comments are transparent", "statement": "Inserting comment lines after any line that ends between tokens does not change the parsed rules; texts with the same tokens, comments aside, are parsed alike. (Deviation: a comment on the last line needs a newline after it, otherwise its words are read as rules.)", "quantifier": "all texts, all comments", "why_tests_cant": "ranges over unboundedly many inputs; a test only samples some of them", "anchors": ["richard/module/helper/SimpleInferenceRuleParser.py:parse_token"]}
{"id": "C80", "title": "Variables of different constituents do not clash", "statement": "In composed semantics the formal variables of every rule are replaced by sentence variables: those shared through the syntax are identified, all others are fresh (never used before in this or an earlier sentence) and different for different nodes.", "quantifier": "all parse trees, all rules whose semantics only uses declared or top-level variables", "why_tests_cant": "ranges over unboundedly many inputs; a test only samples some of them", "anchors": ["richard/processor/semantic_composer/SemanticComposer.py:compose", "richard/processor/semantic_composer/helper/VariableGenerator.py"]}
{"id": "C81", "title": "Undeclared variables inside nested atom lists are captured", "statement": "A variable that occurs only inside a nested list of a rule's semantics is not renamed, so two uses of the rule share it.", "quantifier": "all such rules", "why_tests_cant": "ranges over unboundedly many inputs; a test only samples some of them", "anchors": ["richard/processor/semantic_composer/SemanticComposer.py:extend_map_with_semantics"]}
{"id": "C82", "title": "Substituting bindings into atoms", "statement": "bind_variables replaces exactly the bound variables at every depth, leaves everything else unchanged, preserves structure, and get_atom_variables lists exactly the variables of a term.", "quantifier": "all terms, bindings", "why_tests_cant": "ranges over unboundedly many inputs; a test only samples some of them", "anchors": ["richard/core/atoms.py"]}
{"id": "C83", "title": "Template application splices the arguments", "statement": "apply(template, v1..vn) replaces every occurrence of each formal token at any depth by the elements of the argument list and changes nothing else, provided no argument contains the token of a later one (those are replaced in turn); more arguments than tokens raise an IndexError, and an argument that has no elements raises a TypeError just when its token occurs.", "quantifier": "all templates, arguments", "why_tests_cant": "ranges over unboundedly many inputs; a test only samples some of them", "anchors": ["richard/processor/parser/helper/grammar_functions.py"]}
{"id": "C84", "title": "Optimizer passes keep all atoms", "statement": "FrontResolveName puts exactly the resolve_name atoms of the lists of atoms (not those that are direct arguments of an atom) first and leaves both them and the rest in order. SortByCost only permutes the atoms, at every level, and always ends. IsolateIndependentParts never fails, keeps the first atom first and loses no atom: the others are split into the groups that are connected by variables the first atom does not have, a group with a root variable stays, any other one is put in a 'scoped' and isolated in the same way. Deviation: atoms are kept once only if no two are equal; n+1 copies of an atom without variables become at least n! copies.", "quantifier": "all compositions, models, root variables", "why_tests_cant": "ranges over unboundedly many inputs; a test only samples some of them", "anchors": ["richard/processor/semantic_composer/optimizer/FrontResolveName.py", "richard/processor/semantic_composer/optimizer/SortByCost.py", "richard/processor/semantic_composer/optimizer/IsolateIndependentParts.py"]}
{"id": "C85", "title": "The optimizer preserves the answers of queries", "statement": "For a query over tables and non-recursive rules, the query that all passes together make has the same answers as the original: every answer of the one corresponds to an answer of the other that has the same values for the root variables and for the variables bound before, and it has no values the original answer has not. This holds for every conjunction of atoms, and for queries with not, none, scoped, all, count, numeric determiners and comparisons in which (1) each variable inside a nested query has a value when the nested query is reached or occurs nowhere else, (2) the variable that all or count gives a value does not occur in a later atom of known size and (3) there is no disjunction; with columns of one sort the optimizer and the solver return. Deviation: each condition is needed. A negation gets values it had not when an atom is put before it, a count is overwritten instead of compared, and a disjunction, which has no relation and so costs nothing, is put first where its comparisons fail.", "quantifier": "all queries (unbounded nesting), root variables, relation sizes, tables, rules, initial bindings", "why_tests_cant": "ranges over unboundedly many inputs; a test only samples some of them", "anchors": ["richard/processor/semantic_composer/optimizer/IsolateIndependentParts.py", "richard/processor/semantic_composer/optimizer/SortByCost.py", "richard/processor/semantic_composer/optimizer/BasicQueryOptimizer.py"]}
{"id": "C86", "title": "Isolation is unsound when the first atom leaves a variable unbound", "statement": "When the head atom contains a variable only inside a nested body (e.g. not), two later atoms sharing that variable are isolated from each other and the optimized query can have answers the original has not.", "quantifier": "exists a query/model", "why_tests_cant": "ranges over unboundedly many inputs; a test only samples some of them", "anchors": ["richard/processor/semantic_composer/optimizer/IsolateIndependentParts.py:collect_batches"]}
{"id": "C87", "title": "SortByCost is greedy", "statement": "Each next atom is one of minimal cost given the variables bound by the atoms before it, where the cost is the size of the relation divided by the numbers of values of the arguments that are known (the largest over the relations of the predicate, 0 without a relation); the rest is ranked stably at each step. Deviation: atoms of equal cost need not keep the order they had in the composition, since an earlier ranking can have swapped them; a name resolver that the previous pass moved to the front is moved back by this one.", "quantifier": "all compositions, models, costs", "why_tests_cant": "ranges over unboundedly many inputs; a test only samples some of them", "anchors": ["richard/processor/semantic_composer/optimizer/SortByCost.py"]}
{"id": "C90", "title": "Generation picks the first applicable unused rule", "statement": "generate_node uses the first rule of the category and arity whose condition is solvable and that was not used before, with the first solution's binding, when the rules before it do not match; the output is then exactly the concatenation of what its consequents write, in order and with nothing between them (values that are no texts are kept as they are, several values become a list). When no rule matches, an optional consequent becomes the empty text and any other raises an exception.", "quantifier": "all write grammars, buffers", "why_tests_cant": "ranges over unboundedly many inputs; a test only samples some of them", "anchors": ["richard/core/BasicGenerator.py:find_rule"]}
{"id": "C91", "title": "A used rule can be chosen again with a wrong binding", "statement": "When a matching rule was already used and a later rule does not match, the used rule is returned again, without the binding of its condition but with the binding of the other rule's antecedent; when all matching rules are used the last is used again.", "quantifier": "exists a grammar/buffer", "why_tests_cant": "ranges over unboundedly many inputs; a test only samples some of them", "anchors": ["richard/core/BasicGenerator.py:find_rule"]}
{"id": "C92", "title": "Write grammars that call themselves do not end", "statement": "Although used rules are tracked, a category whose only rule has no condition and starts with the category itself is generated without end (Python: RecursionError) and the output is never produced.", "quantifier": "all such grammars, depths and buffers", "why_tests_cant": "ranges over unboundedly many inputs; a test only samples some of them", "anchors": ["richard/core/BasicGenerator.py:find_rule", "richard/core/BasicGenerator.py:generate_node"]}
{"id": "C93", "title": "Grammars for reading and writing look at their own keys", "statement": "A read grammar only depends on syn, sem, exec, dialog and boost of its rules, a write grammar only on syn, if, format, post, dialog and boost; a grammar of well-written rules is accepted as a whole and each rule keeps its own meaning and boost.", "quantifier": "all grammars", "why_tests_cant": "ranges over unboundedly many inputs; a test only samples some of them", "anchors": ["richard/processor/parser/helper/SimpleGrammarRulesParser.py:parse_simple_rule", "richard/processor/parser/helper/SimpleGrammarRulesParser.py:parse_grammar"]}
{"id": "C94", "title": "Parsing a rule file always ends", "statement": "Parsing any text ends, with nesting depth linear in its length: in rules, a rejection or a TypeError; the TypeError only if the text stops after an opening bracket or a comma.", "quantifier": "all texts", "why_tests_cant": "non-termination cannot be observed by a test", "anchors": ["richard/module/helper/SimpleInferenceRuleParser.py"]}
{"id": "C95", "title": "Importing rules is all or nothing", "statement": "import_rules adds all rules of a file that parses, per predicate after those already there and in the order of the file, and changes nothing else; for any other file it raises and adds nothing.", "quantifier": "all texts, all rule bases", "why_tests_cant": "ranges over unboundedly many inputs; a test only samples some of them", "anchors": ["richard/module/InferenceModule.py:import_rules"]}
{"id": "C96", "title": "Well-typed grammars compose every sentence", "statement": "If each category has a type (a set of values closed under renaming of variables) and the sem, exec and dialog functions of all rules respect the types, then every parse tree of every text is composed without an error, and the meaning has the type of the sentence category. Types may also relate the words of a phrase, the variables it speaks about and its meaning: the meanings that a rule combines then have no variables in common but those the rule connects, and the text of the sentence, its root variables and its meaning are related as the rules say.", "quantifier": "all grammars, typings, texts, parse trees, states of the variable generator", "why_tests_cant": "the trees of a grammar are unbounded in number and depth; a test composes some of them", "anchors": ["richard/processor/semantic_composer/SemanticComposer.py:process", "richard/processor/parser/BasicParser.py"]}
{"id": "C98", "title": "A question is answered with exactly what the database implies", "statement": "For a grammar whose meanings are conjunctions over tables and non-recursive rules (checked rule by rule), every text that the grammar derives is answered: parser, composer, optimizer and executor together raise no error, and the answers restricted to the root variables are exactly the assignments that satisfy the meaning of the first parse tree; the database is unchanged. The same holds for grammars whose meanings are first-order queries (negation, counting, quantifiers) and for first-order rules; with the optimizer if the queries satisfy a syntactic condition under which it may reorder them (C85). In general the first parse tree decides alone: what its execution does is what the system does; and if there is no tree then nothing but the error output is changed.", "quantifier": "all such grammars, texts, databases, rule bases, relation sizes; for the general part all grammars, models and stores", "why_tests_cant": "it composes the correctness of four components over unbounded texts and databases", "anchors": ["richard/core/System.py", "richard/core/BasicSystem.py", "richard/block/TryFirst.py", "richard/block/FindOne.py", "richard/processor/parser/BasicParser.py", "richard/processor/semantic_composer/SemanticComposer.py", "richard/processor/semantic_executor/AtomExecutor.py"]}
{"id": "C99", "title": "Failures are reported to the reader of the output", "statement": "With the library's output buffer and English write grammar, entering a text with an unknown word and then reading the output gives 'Could not understand: ' with the next nine characters after the part that was understood, and leaves the model as it was. For any contents of the buffer the output is determined by the errors in it, in a fixed order of priority. Deviations: for a text that is not understood or is empty, enter raises, although the report can then be read; and a report that is not read hides the reports on later texts.", "quantifier": "all grammars, texts, models, contents of the buffer", "why_tests_cant": "the report depends on the whole grammar and text and on unread earlier reports", "anchors": ["richard/grammar/en_us_write.py", "richard/core/System.py:enter", "richard/core/System.py:read_output", "richard/core/BasicGenerator.py", "richard/module/BasicOutputBuffer.py"]}
{"id": "C44", "title": "First-order queries and rules are answered exactly", "statement": "For queries and rules that combine relations with =, <, >, not/none, scoped, $disjunction, all, count and the numeric determiners, in any nesting, and that satisfy a simple syntactic condition (variables get a value before they are compared; local variables of nested queries are not head variables of the rule; the variable of count and all is fresh; the alternatives of a disjunction give values to the same variables): whenever the solver returns, it returns, without duplicates, exactly the assignments for which the query is true under the first-order meaning of the rules (a predicate holds of exactly the rows in its tables and those its rules derive), and the state is unchanged. If no predicate depends on itself then this meaning exists and is unique, and if moreover columns and variables can be given sorts (number, text) then the solver returns without an error. Deviations when the conditions are not met: a rule with the variable of count in its head answers questions that do not follow from it; a negation before its head variables have a value makes the answer depend on how the rule is asked; comparing text with numbers raises TypeError.", "quantifier": "all tables, rules, queries and initial bindings of that form, all interpretations", "why_tests_cant": "negation, counting and quantifiers interact with rules and with the binding pattern of the call; tests show finitely many queries on small data", "anchors": ["richard/core/Solver.py", "richard/module/CoreModule.py", "richard/module/InferenceModule.py"]}
{"id": "C79", "title": "Texts are split exactly as the regular expressions of the library say", "statement": "The tokens of grammar rules and of inference rules, the white space that is normalised, the kinds of tokens (identifier, variable, integer, fraction, predicate) and the parts of a sentence that a pattern in a grammar rule reads are those that Python's backtracking matcher finds for the patterns in the source; a match is always a text that the pattern describes, and there is no match only if no prefix is described. Of several matches the one is taken that is reached by the preferred choices, the earliest choice counting most: the left alternative, another round of a greedy repetition, the end of a lazy one; a round that takes nothing ends a repetition. A pattern stands for what is written, and what is not written according to the syntax is not read: a *, + or ? that follows nothing, a $ or a ^, a * that follows a quantifier, and any quantifier that follows a lazy one are rejected. A quoted text ends at the first quote that does not follow a backslash; if all quotes follow one, at the last. Deviations: a text that ends with a backslash swallows what follows up to a later quote; alone, the pattern of identifiers accepts a final newline.", "quantifier": "all texts, all patterns of the modelled syntax (characters, escapes, classes, groups, alternatives, greedy and lazy ?, *, +, final $, initial ^)", "why_tests_cant": "the matcher backtracks: whether a quote closes a text depends on the whole rest of the file", "anchors": ["richard/processor/parser/helper/SimpleGrammarRulesParser.py:parse_syntax", "richard/module/helper/SimpleInferenceRuleParser.py:parse", "richard/processor/parser/BasicParser.py:process", "richard/processor/parser/earley/EarleyParser.py:scan"]}
{"id": "C88", "title": "Which-questions in English mean what they say", "statement": "Take the grammar of nouns, adjectives, relative clauses with 'that' and 'and', active and passive verb phrases, 'does not' and the determiners a/the/some/any, no, every, numbers and 'more than' (the rules of the chat80 example and of the quantifier test), with any lexicon of lower-case words for relations of a database and for predicates defined by non-recursive first-order rules. Then every text that is a question of this fragment of English, in any case and with any white space, is answered with exactly the individuals of which the question is true, where truth is defined on the phrases alone, independently of grammar, composer and solver; the database is unchanged and there is no error. This holds without the query optimizer and with it, for any sizes of tables. A text that is not a question of the fragment is not answered. Deviation: a number counts combinations of values, so that 'two countries that border a sea' can be one country and two seas; the guarantee therefore needs that phrases with a number mention no further individuals in their relative clauses.", "quantifier": "all lexicons, databases, rules, questions of the fragment (unbounded nesting) and texts", "why_tests_cant": "sentences nest without bound, and their truth depends on the whole database; a test asks some questions of one database", "anchors": ["tests/integration/chat80/read_grammar.py", "tests/unit/Quantifier_test.py", "richard/core/System.py", "richard/processor/parser/BasicParser.py", "richard/processor/semantic_composer/SemanticComposer.py", "richard/processor/semantic_executor/AtomExecutor.py", "richard/core/Solver.py"]}
{"id": "C45", "title": "A learned rule holds from then on", "statement": "learn_rule(head, body) has one answer, which binds nothing, and adds the rule behind the other rules of its predicate, with the values that variables have at that moment filled in everywhere in head and body; nothing else changes, and when it fails (head that is no atom, predicate that is no word, wrong number of arguments) nothing changes at all. Every later query is answered as the tables, the old rules and the new rule say, the latter as it was written and for those values only; this includes first-order bodies with negation, counting and quantifiers. Without recursion, and if columns and variables have sorts, the later query does return. Deviation: a rule for the predicate learn_rule replaces the built-in one, so that afterwards learning seems to succeed but adds nothing.", "quantifier": "all rule bases, tables, rules, bindings at the time of learning, later queries", "why_tests_cant": "which rules are learned with which bindings is decided by dialogs of any length", "anchors": ["richard/module/InferenceModule.py:learn_rule", "richard/module/InferenceModule.py:insert_rule", "richard/core/atoms.py:bind_variables"]}
{"id": "C38", "title": "Answers depend only on what the query mentions", "statement": "The answers to a first-order query stay what they are when the model gets further modules, tables and rules (of any form) for predicates on which the query does not depend, directly or through rules, and when further variables have a value: each answer is then extended with these values and nothing else changes. The further variables may have the names of variables in rules, since every rule has its own variables. Deviation: the predicates of the core module are not protected; a table or rule with the name of one (less_than, not, ...) is not rejected but adds answers to it in all queries.", "quantifier": "all queries, bindings, models and extensions of models", "why_tests_cant": "whether a name is captured depends on the whole chain of rules that a query calls; a test shows it for the names it uses", "anchors": ["richard/core/Solver.py:solve", "richard/core/Model.py:find_relations", "richard/module/InferenceModule.py:solve_rule"]}
{"id": "C46", "title": "A conversation in English is answered right", "statement": "Take the dialog system of the chat80 example: a read grammar with which, what ... are there, does, is there and how many questions over the phrases of C88, the intents of intents.pl, the output buffer and the write grammar. For any lexicon of lower-case words for the relations of a database of texts and for predicates defined by non-recursive first-order rules, and for any list of texts: each text that is a sentence of the fragment, in any case and with any white space, is answered, and the reply that is read is right: a which or what question is answered with the names it is true of, each one once and in alphabetical order with commas between them (the empty text when there are none), does and is there with 'yes' if the sentence is true and 'no' if it is not, how many with the number of individuals. Any other text gets a reply that says so: 'Could not understand:' with the next nine characters where the reading stopped, 'No sentence given' or 'Sorry, I don't understand' (in the last two cases enter raises as well). No exchange changes the database or the rules or depends on an earlier exchange. All this holds without the query optimizer and with it, for any sizes of tables. Deviation: how many counts combinations of values, so that 'how many countries border a country?' can give more than there are countries; as in C88 the guarantee needs that what is counted mentions no further individuals.", "quantifier": "all lexicons, databases, rules, conversations of any length, sentences of unbounded nesting", "why_tests_cant": "the reply depends on the whole database, the nesting of the sentence and, through grammar, buffer and variable numbering, on the history of the conversation", "anchors": ["tests/integration/chat80/read_grammar.py", "tests/integration/chat80/intents.pl", "tests/integration/chat80/write_grammar.py", "richard/core/System.py:enter", "richard/core/System.py:read_output", "richard/core/BasicGenerator.py", "richard/module/BasicOutputBuffer.py", "richard/module/InferenceModule.py", "richard/core/Solver.py"]}
{"id": "C48", "title": "Logging changes the log and nothing else", "statement": "For a system of parser, composer and executor, with any blocks, grammar, model and logger: entering a text with a logger has the outcome, answers and effects of entering it without one; the settings of the logger stay what they are; and to its entries are added, in the order in which the processors returned them, for each result of a processor that the settings show, the name of the processor, the error if there is one, and the texts of all products; answers are written as {'name': 'value', ...}; headers, key-values, errors and separators look on the screen as documented (their colours apart); of the steps of the composition just those are written that differ from the step before, without the white space around them. Of each kind of setting the latest call counts; if the current test is not logged, or products are not shown, nothing is added. Deviation: a ResultIterator is read to its end by the logger, so that the caller of enter gets an iterator without results.", "quantifier": "all systems, texts, states, loggers", "why_tests_cant": "a test runs with the logger it was written with; the claim compares all runs with and without", "anchors": ["richard/core/Logger.py", "richard/entity/SentenceRequest.py:exec_process", "richard/processor/parser/BasicParserProduct.py:log", "richard/processor/semantic_composer/SemanticComposerProduct.py:log", "richard/processor/semantic_executor/AtomExecutorProduct.py:log", "richard/entity/ResultIterator.py"]}
{"id": "C47", "title": "A dialog test passes just when the replies are those expected", "statement": "DialogTester.run passes if and only if the system, asked the questions one after the other without a logger, raises no exception and each reply is equal to the one expected; then nothing is printed. Otherwise it stops at the first question where this is not so: later questions are not entered, the exception is raised and the log is printed once. The log gets, for each test that is logged, its number, the question, the products that are shown and the reply; for other tests only the reply, if it is wrong. For the English dialog system of C46: a run that passes expects only right replies and leaves the database as it was, and a run that expects the right replies to unambiguous sentences passes. Deviations: the setting 'last test only' also logs every earlier test that is equal to the last one; a wrong reply to a test that is not logged is printed without its question; a text without words makes enter raise, so that a test of the reply to it cannot pass.", "quantifier": "all systems, lists of tests, loggers; for the last part all lexicons, databases, rules and sentences of C46", "why_tests_cant": "the verdict depends on the whole history of the dialog; a run of a test cannot show what other runs would say", "anchors": ["richard/core/DialogTester.py:do_run", "richard/core/System.py:enter", "richard/core/System.py:read_output", "richard/core/Logger.py"]}
{"id": "C58", "title": "The data sources are interchangeable", "statement": "Take any list of facts that have a value for every column that is asked for. Given to a SimpleDataSource or to Sqlite, or present in a MySql or Postgres database, they are selected alike: for all columns and values the rows are the same, in the same order, namely those of the facts that have the given values in the given columns. For table and column names without percent sign or question mark a select from a server does exactly what the select from Sqlite does, also where that fails. Deviations: a SimpleDataSource has no rows for a table that was never filled, where SQL raises; it raises KeyError for a fact without a value, where SQL gives None; and the servers reject names with a percent sign.", "quantifier": "all lists of facts, queries, values of any content", "why_tests_cant": "a test compares two sources on a few rows", "anchors": ["richard/data_source/SimpleDataSource.py:select", "richard/data_source/Sqlite3DataSource.py:select", "richard/data_source/MySqlDataSource.py:select", "richard/data_source/PsycoPg2DataSource.py:select", "richard/data_source/PsycoPg3DataSource.py:select"]}
{"id": "C89", "title": "The query optimizer only fails on sizes that do not fit", "statement": "For every composition of atoms (each with a name; each argument that is a list holding atoms, or simple values only), at whatever depth, for all relations and root variables, the query optimizer ends. If it has a result, every relation that has a size has one size for each argument of every atom with its name in the composition; otherwise it raises that the number of argument sizes doesn't match, and there is such an atom, or a division by zero, and an atom has a relation with an argument of size 0. So when each relation has one size for each argument and none is 0, the optimizer never fails. Deviation: none of this is checked when the relation is made: a relation with a size and the argument sizes left out, or two relations with one name and different numbers of arguments, make every sentence about them an error; a size of 0 fails only when something is known about the argument.", "quantifier": "all compositions of any depth, size tables, root variables", "why_tests_cant": "a test optimizes a few sentences with good sizes", "anchors": ["richard/processor/semantic_composer/optimizer/SortByCost.py:SortByCost", "richard/processor/semantic_composer/optimizer/FrontResolveName.py:FrontResolveName", "richard/processor/semantic_composer/optimizer/BasicQueryOptimizer.py:BasicQueryOptimizer", "richard/entity/Relation.py:Relation"]}
{"id": "C49", "title": "A SPARQL data source selects the facts of the graph", "statement": "Take any endpoint that reads queries as the SPARQL recommendation says and answers from a graph, in any order. For every graph, predicate name, pair of columns and pair of values (absent, resources, names of the endpoint, texts), a select has exactly one row for each triple with the predicate whose subject and object meet the values: an id column means the resource, a constant column what the name stands for, another column the text in the language of the data source; a text column without a value has only texts in that language, any other column without a value has anything. The row has the given values and the resources or texts of the others. Deviation: texts are put into the query without quoting: a text with an apostrophe is refused although the graph has it, and a text can be made that selects other facts.", "quantifier": "all graphs, endpoints, orders of answers, columns and values", "why_tests_cant": "a test needs the live endpoint and sees a few of its answers", "anchors": ["richard/data_source/SparqlDataSource.py:do_select", "richard/data_source/SparqlDataSource.py:create_query", "richard/data_source/SparqlDataSource.py:prepare_term", "richard/data_source/SparqlDataSource.py:prepare_results"]}
{"id": "C59", "title": "A system that is taught set inclusion answers right", "statement": "Take the SIR dialog system with its sentences about set inclusion (a X is a Y, every X is a Y, any X is an example of a Y, is a X a Y?), all its rules (intents.pl, inferences.pl), database, modules, write grammar and optimizer. For any dialog of such sentences, over any nouns and in any order, each statement is acknowledged and remembered, and each question gets the reply that follows from the facts told before it: Yes if X is Y or a chain of facts leads from X to Y, otherwise Sometimes if a chain leads from Y to X, otherwise Insufficient information. Afterwards the database holds exactly the facts told, in the order in which they were told. If the facts told have no circles every question is answered. Deviations: a question from which a circle of facts is met is never answered, whatever the recursion limit (but no wrong answer is given, and the dialog goes on after it); and a noun that ends in an s is taken for a plural, so that a bus is a bu.", "quantifier": "all dialogs (lists of texts) of these sentences, all nouns, all sets of facts, cyclic or not, all orders of telling and asking, with and without the optimizer, any earlier parses, any number of variables used", "why_tests_cant": "the rules are recursive over facts the user supplies: which chains exist and whether the recursion ends depends on every dialog", "anchors": ["tests/integration/sir/read_grammar.py", "tests/integration/sir/write_grammar.py", "tests/integration/sir/intents.pl", "tests/integration/sir/inferences.pl", "tests/integration/sir/SIRModule.py", "tests/integration/sir/SIRDB.py", "tests/integration/sir/SIROutputBuffer.py", "richard/core/System.py", "richard/module/InferenceModule.py", "richard/core/Solver.py"]}
{"id": "C100", "title": "Recursive rules are answered just when their calls descend", "statement": "Let the rules of an inference module be flat and range-restricted, and call the pair of a predicate and the arguments that are known when it is asked for a call. If there is a level that goes down from each call to the calls that its rules make, then a query is answered, with exactly the answers of the least model of the tables and rules, in a stack that is as deep as the level. If a query makes a call from which calls can follow each other without end, it is never answered, however deep the stack. In particular, for path(X,Y) :- edge(X,Y) and path(X,Y) :- edge(X,Z), path(Z,Y): if no circle of edges can be reached from the first argument (or, if that is not known, there is no circle at all), then path(a,b) gives just the pairs that a chain of edges connects, whichever arguments are known. Deviation: if a circle can be reached there is no answer at all, not even to a question to which a single edge is the answer.", "quantifier": "all flat rules, tables of constants, queries, bindings, and all tables of pairs", "why_tests_cant": "whether a recursive question is answered depends on the data in all the tables, of any size, and on which arguments are known", "anchors": ["richard/module/InferenceModule.py:solve_rule", "richard/core/Solver.py:solve", "richard/core/Solver.py:solve_single_atom"]}
{"id": "C101", "title": "A CSV file means its rows", "statement": "Every text of a file is a table in exactly one way: records on lines (that end in a line feed, a carriage return or both), cells between commas, a cell that begins with a quote going on to the next quote that is not doubled, whatever lines it goes over, and then up to the comma or line end; and the import inserts just the rows of that table, each after the header with the cells that have a header, in order, skipping empty lines. A table that Python's csv.writer wrote is read back unchanged if it has no carriage returns. The only failure is a cell longer than the limit of the csv module; then the rows before it are inserted. Deviations: the file is opened without newline='', so that a carriage return in a quoted cell is always lost; and a quote that is not closed makes the rest of the file one cell, without an error.", "quantifier": "all texts, tables, limits, data sources", "why_tests_cant": "a quote decides how the whole rest of the file is read; a test imports a few files without any", "anchors": ["richard/data_source/CsvImporter.py:import_table_from_file"]}
{"id": "C102", "title": "A printed parse tree tells which tree it is", "statement": "If the texts of two parse trees (str(tree), as in the log) are the same, then the trees have the same words and phrases, with the same categories and in the same places; if they are trees of the parser for two sentences without quotes, then the sentences are the same but for capitals and white space. The text on one line (inline_str) tells the same except for the spaces between the words. Deviations: in the text on one line trees that differ in such a space look the same, and one that begins with a space has a gap; with a quote in a word, both texts can stand for two different trees.", "quantifier": "all pairs of trees, and of sentences and grammars", "why_tests_cant": "a test prints a few trees; that no two different trees look alike is about all pairs", "anchors": ["richard/entity/ParseTreeNode.py:__str__", "richard/entity/ParseTreeNode.py:inline_str"]}
{"id": "C103", "title": "A system that is taught facts and rules answers what follows, in three truth values", "statement": "Take the Cooper system of tests/integration/cooper: its database, module, rules, two grammars and write grammar. Whatever things, facts (true or false) and rules it has been taught, as long as the rules have no circles: what it executes for X is a N, X is A, X is not a N and X is not A, for a known name in lower case, gives the reply True if the sentence follows from the facts and rules, otherwise False if the opposite follows, otherwise Unable to answer; and nothing is changed. What it executes for the lessons X is a N and no A is a B (and As are Bs) is acknowledged and adds just that fact or rule; what followed before still follows. From the texts on: any list of lessons X is a N, no A is a B, As are Bs and an A is not a B, given to a new system (any names of one or two words in lower case that are not words of the grammars, the other words in any case, any spacing), is acknowledged lesson by lesson; if the rules have no circles, each question X is (not) (a) N to the second system, about a thing that a lesson was about, gets the reply that follows from the lessons, and no question changes what is known. Deviations: of two facts about a thing and a quality the first stays; a name with a capital is not recognised and the sentence has no reply; a thing that is not known gets the name of a variable as its id, and that may be the id of another thing; in a sentence with every or no the truth values are not compared (every metal is a nonmetal is true after the lesson that no metal is one); names are not compared with each other; of two qualities only the first is looked at.", "quantifier": "all sets of names, facts and rules, all names and qualities of the database, all sequences of lessons", "why_tests_cant": "whether something follows depends on chains of rules taught in any order; a test asks about one set of lessons", "anchors": ["tests/integration/cooper/CooperModule.py", "tests/integration/cooper/CooperDB.py", "tests/integration/cooper/inferences.pl", "tests/integration/cooper/read_grammar1.py", "tests/integration/cooper/read_grammar2.py", "tests/integration/cooper/write_grammar.py", "richard/module/InferenceModule.py", "richard/core/Solver.py"]}
{"id": "C104", "title": "Places of birth are looked up right", "statement": "Take the system of tests/integration/wikidata: its module, rules, grammar, output buffer and write grammar, with any endpoint that answers queries from a graph, in any order, where labels are texts of resources and places of birth are resources. For any dialog of questions where was NAME born? (the words in any case, any white space, NAME a word of plain characters): each question is answered with the label of a place where a person with the label NAME was born, or, when nothing has that label, a person with the label NAME with capitals at the start of words; or it raises Name not found just when nothing has the label either way, No rule found just when no place of birth is known, and an AttributeError just when such a place has no label. With labels for all places this holds for every question of the dialog, and nothing is left in the output buffer. Deviations: something that is not a person and has the label as it is given hides the people who have it with capitals; of several people and places only one is told; after an AttributeError the report about another person of the name stays in the buffer, and the next question is answered with it.", "quantifier": "all graphs, endpoints, orders of answers, names, dialogs", "why_tests_cant": "the answers of an endpoint cannot be enumerated, and the test asks one question from a cache", "anchors": ["tests/integration/wikidata/WikidataModule.py:wikidata_label", "tests/integration/wikidata/WikidataModule.py:wikidata_place_of_birth", "tests/integration/wikidata/WikidataModule.py:wikidata_person", "tests/integration/wikidata/test.py", "richard/data_source/SparqlDataSource.py:select", "richard/core/BasicGenerator.py:generate_output"]}
{"id": "C105", "title": "Exactly the texts in the notation are grammar rules", "statement": "A syn text is accepted just when its tokens are a name with variables in parentheses, -> and parts (atoms, quoted words, regular expressions) with nothing, + or ~ between them, where ? may follow a word and, in a grammar for writing, an atom; and it is then read as that rule: the quotes removed, an escaped quote as the quote, a separator where nothing stands between two parts, an optional one for ~. Any other text is refused with an error that tells whether the left-hand side, the arrow or the right-hand side is wrong. Leniency: a comma after the last variable and a + or ~ after the last part are accepted.", "quantifier": "all texts, read and write grammars", "why_tests_cant": "tests parse a few rules; which texts are refused, and as what the others are read, concerns all texts", "anchors": ["richard/processor/parser/helper/SimpleGrammarRulesParser.py:parse_syntax", "richard/processor/parser/helper/SimpleGrammarRulesParser.py:parse_atom", "richard/processor/parser/helper/SimpleGrammarRulesParser.py:parse_string", "richard/processor/parser/helper/SimpleGrammarRulesParser.py:parse_regexp"]}
{"id": "C106", "title": "The replies to intents are as documented", "statement": "With the intents and write grammar of the Chat-80 example: a value with a unit is told as the first value found, a space and the unit, and when none is found nothing is left in the output buffer; a table has every combination of values that was found once, in the order of the texts in the first column (rows with the same text keep their order), fractions dropped from numbers, and each column's unit after its cells; a list has every value once in alphabetical order; saying goodbye gets Cheerio.; and after the reply the model is as before. Deviations: a column of whole numbers that has a unit, and a list with something else than texts, raise a TypeError instead, and then the reply stays in the output buffer, so that later replies fail too.", "quantifier": "all bodies of intents that the solver answers, all variables, units and models", "why_tests_cant": "units, numbers of rows and values vary; sorting and stability concern all lists", "anchors": ["tests/integration/chat80/intents.pl", "tests/integration/chat80/write_grammar.py: format_table, format_cell, format_list", "richard/core/BasicGenerator.py:generate_output"]}
{"id": "C107", "title": "Only texts in the notation are rule files, and the rules are as written", "statement": "If a file is accepted, its tokens (comments left out) are those of one fact or rule after the other, and each rule in the result stands for its own tokens: nothing is passed over and nothing is made up. So the number of rules is the number of full stops, the brackets balance, and the last token is a full stop. A text that is not in the notation adds no rule at all.", "quantifier": "all texts, all fuel; all states of the rule base", "why_tests_cant": "the parser backtracks between brackets and alternatives, and stops silently at the first rule it cannot read; tests show that good files are read, not that no bad one is", "anchors": ["richard/module/helper/SimpleInferenceRuleParser.py: parse, parse_rule, parse_atoms, parse_terms", "richard/module/InferenceModule.py: import_rules"]}
{"id": "C108", "title": "Keeping statistics changes no answer", "statement": "A solver that keeps statistics has, for every query and every atom that is written, the answers, the exception or the endless recursion of a solver that keeps none, and leaves the model in the same state, whatever was counted before. With modules that only have tables, an atom is counted each time it is tried and at no other time: the first atom of a query once, the atoms after it once for each answer to it. Without the setting nothing is counted.", "quantifier": "all queries, bindings, models (core module, inference module, tables, and any module that does not look at the statistics), recursion limits, earlier statistics", "why_tests_cant": "a test compares a few queries with and without statistics", "anchors": ["richard/core/Solver.py:solve_single", "richard/processor/semantic_executor/AtomExecutor.py:process"]}
