{"id": "C01", "title": "Interpolation is one left-to-right substitution pass", "statement": "Interpolate(input, ctx) succeeds with output o exactly when o is obtained from input by one left-to-right pass that turns `$${{` into a literal `${{`, turns each `${{ name }}` into the value of name, and copies every other byte; substituted values are never scanned again.", "quantifier": "every byte string as template, every variable map, every process environment (NUL-free strings; the general statement is refuted by a NUL-delimited placeholder)", "why_tests_cant": "the function works in three rewriting passes over arbitrary bytes with an in-band placeholder; tests only sample a few templates", "anchors": ["internal/interpolate/interpolate.go:Interpolate", "internal/interpolate/interpolate.go:Pattern", "internal/interpolate/interpolate.go:EscapePattern", "internal/interpolate/interpolate.go:escapePlaceholder", "internal/interpolate/interpolate.go:resolveVar"]}
{"id": "C02", "title": "Interpolation fails exactly on an undefined reference and names the leftmost one", "statement": "Interpolate returns an error iff some unescaped, non-env reference in the template is not in the variable map, and the name in the returned error is the leftmost such reference; `env.X` references never fail.", "quantifier": "every template, variable map and environment", "why_tests_cant": "needs all positions of good and bad references", "anchors": ["internal/interpolate/interpolate.go:Interpolate", "internal/interpolate/interpolate.go:resolveVar"]}
{"id": "C03", "title": "An escaped `$${{` reaches the shell as the literal `${{`", "statement": "Wherever templates are accepted, `$${{ x }}` denotes the literal text `${{ x }}`: in a command, a log, a prompt, a dir, and in env values at the global, task and command level.", "quantifier": "every escaped template at every place, every variable map", "why_tests_cant": "the failure (global/task env is interpolated twice) depends on the level where the value was written, tests only escape in commands", "anchors": ["internal/runner/runner.go:executeTask", "internal/runner/runner.go:executeCommand", "internal/runner/runner.go:interpolateEnv", "internal/interpolate/interpolate.go:Interpolate"]}
{"id": "C04", "title": "Variable resolution computes the fixed point and does not depend on map order", "statement": "If resolving a vars block succeeds, each variable's value is its template expanded with the final values of the variables it references (block first, then parent, then env), every parent variable not shadowed keeps its value, nothing else is defined, and the outcome is the same for every map iteration order.", "quantifier": "every vars block, parent map, environment and Go map iteration order", "why_tests_cant": "Go randomises map iteration; a test sees one order per run", "anchors": ["internal/interpolate/interpolate.go:ResolveVarsWithLocation"]}
{"id": "C05", "title": "Variable resolution fails exactly on a cycle or an undefined reference, and always terminates", "statement": "Resolving a vars block terminates, and fails iff some variable of the block has no value: it (transitively) references itself or an undefined name. Escaped references do not count as references.", "quantifier": "every vars block, parent map, environment, iteration order", "why_tests_cant": "cycles may have any length and shape; escaped self-references are wrongly reported as cycles", "anchors": ["internal/interpolate/interpolate.go:ResolveVarsWithLocation", "internal/errs/interpolate.go:VarCycleError"]}
{"id": "C06", "title": "`when: ${{ v }} == 'x'` runs iff the value equals x (and != iff it differs)", "statement": "For a condition that compares an interpolated value with a quoted literal, the item runs iff the trimmed, unquoted value equals (differs from) the literal, whatever characters the value contains.", "quantifier": "every value of the variable, every literal without the quote character, both quote styles and operators", "why_tests_cant": "the value is spliced into the text before parsing, so empty, multi-line or operator-bearing values matter", "anchors": ["internal/condition/condition.go:Evaluate", "internal/condition/condition.go:evaluateComparison", "internal/condition/condition.go:evaluateOp"]}
{"id": "C07", "title": "Truthiness of a bare `when` value", "statement": "A `when` that is not a comparison skips iff its interpolated text is blank or is a case variant of `false`; otherwise it runs; an empty `when` always runs; an undefined variable is an error.", "quantifier": "every condition text and variable map", "why_tests_cant": "unbounded strings incl. Unicode white space and case folding", "anchors": ["internal/condition/condition.go:Evaluate", "internal/condition/condition.go:evaluateTruthy"]}
{"id": "C08", "title": "No dangling references survive parsing", "statement": "If Parse succeeds, every name in every task's deps and every `task:` reference at any nesting depth (including inside parallel blocks and included files) is a task of the result; and a dangling reference makes Parse fail.", "quantifier": "every Babfile, any number of tasks and references", "why_tests_cant": "must hold for all reference graphs", "anchors": ["internal/parser/validate.go:validateDependencies", "internal/parser/validate.go:validateRunTaskRefs", "internal/parser/validate.go:validateRunItemTaskRefs"]}
{"id": "C09", "title": "Parsing rejects exactly the cyclic task graphs", "statement": "Cycle validation reports an error iff the graph whose edges are deps and `task:` references (at any depth) has a cycle; the verdict is the same for every map iteration order.", "quantifier": "every task graph, every iteration order", "why_tests_cant": "cycles of any length, any DFS start order", "anchors": ["internal/parser/validate.go:validateRunCycles"]}
{"id": "C10", "title": "A reported circular-dependency chain is a real cycle", "statement": "Every chain in a circular-dependency error ends in a name that occurs earlier in the chain, and each consecutive pair in it is an edge of the task graph.", "quantifier": "every task graph and iteration order", "why_tests_cant": "the chain slices share backing arrays, so whether a report is later overwritten depends on depth and capacity growth", "anchors": ["internal/parser/validate.go:validateRunCycles", "internal/errs/parse.go:CircularDepError"]}
{"id": "C11", "title": "Aliases are unambiguous", "statement": "If Parse succeeds no alias equals a task name, no alias is given twice, and running an alias runs the one task that declares it while running a task name runs that task, for every map iteration order.", "quantifier": "every Babfile with aliases, every iteration order", "why_tests_cant": "the alias map is built by ranging over a Go map", "anchors": ["internal/parser/validate.go:validateAliases", "internal/parser/parser.go:buildAliasMap", "internal/runner/runner.go:resolveTaskName"]}
{"id": "C12", "title": "Includes add exactly the included tasks under their namespace", "statement": "If parsing succeeds, the tasks are exactly: the file's own tasks under their names, plus for each include ns of a file with tasks T, `ns:t` for each t in T; nothing is dropped or overwritten, collisions are errors.", "quantifier": "every finite tree of included files, names and namespaces", "why_tests_cant": "recursive structure, colons in names and namespaces can collide", "anchors": ["internal/parser/parser.go:parseFile", "internal/parser/include.go:resolveInclude"]}
{"id": "C13", "title": "Include cycles are rejected and parsing always terminates", "statement": "Parsing terminates on every finite set of files; if a file can reach itself through includes, parsing it fails; a file included twice on different branches (a diamond) is not an error.", "quantifier": "every finite include graph", "why_tests_cant": "cycles of any length; termination", "anchors": ["internal/parser/parser.go:parseFile", "internal/parser/parser.go:chainFromVisited", "internal/parser/include.go:resolveInclude"]}
{"id": "C14", "title": "Namespacing keeps references inside the included file", "statement": "Every dep, task reference and alias of an included task is rewritten with the same namespace prefix, so included tasks refer exactly to what they referred to in their own file; a file that validates alone still has all references resolved after inclusion.", "quantifier": "every included file and namespace", "why_tests_cant": "must hold for all nested items", "anchors": ["internal/parser/include.go:prefixDeps", "internal/parser/include.go:prefixTaskRuns", "internal/parser/include.go:prefixAliases", "internal/parser/include.go:prefixAlias"]}
{"id": "C15", "title": "Inheritance of file-level settings by included tasks", "statement": "An included task gets its own vars/env entries first, then its file's; its own dir/silent/output if set, otherwise its file's.", "quantifier": "every included file and task", "why_tests_cant": "all combinations of set/unset at all levels and nesting depths", "anchors": ["internal/parser/include.go:resolveInclude", "internal/babfile/env.go:MergeEnvMaps", "internal/babfile/variable.go:MergeVarMaps"]}
{"id": "C16", "title": "Including a file preserves every run item's own settings", "statement": "A run item behaves the same after inclusion as in its own file: only task references change; command, env, dir, silent, output, platforms, when, labels, mode, limit and color are kept.", "quantifier": "every run item at every nesting depth", "why_tests_cant": "field-by-field copies of every item kind; the parallel copy drops silent and output", "anchors": ["internal/parser/include.go:prefixTaskRuns"]}
{"id": "C17", "title": "Included tasks run by default in their own Babfile's directory", "statement": "A task from an included file with no dir of its own, no file-level dir and no command dir runs in the directory of the file that defines it, and a relative dir is resolved from that directory.", "quantifier": "every root file, included file and command", "why_tests_cant": "depends on settings of another file (root `dir`)", "anchors": ["internal/runner/runner.go:resolveDir", "internal/parser/include.go:resolveInclude"]}
{"id": "C18", "title": "Parsing is independent of map iteration order", "statement": "For any two map iteration orders, parsing the same files either fails for both or succeeds for both with the same tasks, aliases and settings.", "quantifier": "every file tree and every pair of iteration orders (per range statement)", "why_tests_cant": "Go randomises iteration", "anchors": ["internal/parser/parser.go:parseFile", "internal/parser/parser.go:buildAliasMap", "internal/parser/include.go:resolveInclude", "internal/parser/validate.go:validateAll"]}
{"id": "C19", "title": "A task's body runs at most once per invocation", "statement": "During one run, each task is claimed at most once and each of its own commands starts at most once, however often and from however many parallel branches it is referenced.", "quantifier": "every task map, goroutine schedule, command outcome and cancellation point", "why_tests_cant": "interleavings", "anchors": ["internal/runner/parallel.go:syncState.claim", "internal/runner/runner.go:runTask"]}
{"id": "C20", "title": "Dependencies complete before a task's items start", "statement": "When any run item of task T starts, every dependency of T has already completed successfully (or been skipped by its own `when`), and every command T's dependencies ran has ended.", "quantifier": "every task map, schedule, outcome", "why_tests_cant": "interleavings of parallel branches", "anchors": ["internal/runner/runner.go:runTask", "internal/runner/parallel.go:preResolveDeps", "internal/runner/parallel.go:syncState"]}
{"id": "C21", "title": "Run items of a task execute in order, fail-fast", "statement": "A task's items start in listed order, each after the previous one returned success; after an item fails no later item of that task starts and the task is never marked complete.", "quantifier": "every task, schedule, outcome", "why_tests_cant": "all failure positions and schedules", "anchors": ["internal/runner/runner.go:executeTask", "internal/runner/runner.go:runTask"]}
{"id": "C22", "title": "A successful run ran everything it should have", "statement": "If a run returns success (exit by nil error), every task in the dependency closure that was reached is complete and every item not excluded by platform/when finished successfully.", "quantifier": "every task map, schedule, outcome, cancellation point", "why_tests_cant": "cancellation while waiting for a parallel slot makes items vanish silently", "anchors": ["internal/runner/runner.go:RunWithTasks", "internal/runner/parallel.go:executeParallelInterleaved"]}
{"id": "C23", "title": "A failing command makes the whole run fail", "statement": "If any command started during a run ends with an error, the run returns an error.", "quantifier": "every task map, schedule, outcome", "why_tests_cant": "the error must survive every wrapping layer and goroutine join", "anchors": ["internal/runner/runner.go:executeCommand", "internal/runner/runner.go:runTask", "internal/runner/parallel.go:executeParallelInterleaved"]}
{"id": "C24", "title": "Nothing is started after cancellation", "statement": "Once the context is cancelled no further command process is started and no further prompt of a task whose loop observes the cancellation is asked.", "quantifier": "every schedule and cancellation point", "why_tests_cant": "race between cancellation and every step", "anchors": ["internal/runner/runner.go:executeTask", "internal/runner/runner.go:runCommandWithWriters", "internal/runner/parallel.go:executeParallelInterleaved"]}
{"id": "C25", "title": "A parallel block never exceeds its limit", "statement": "With limit n > 0, at every moment at most n items of the block are running; with limit 0 there is no bound.", "quantifier": "every block, schedule", "why_tests_cant": "interleavings", "anchors": ["internal/runner/parallel.go:executeParallelInterleaved", "internal/runner/parallel.go:executeParallelTUI"]}
{"id": "C26", "title": "Every parallel item is attempted and the first failure is reported", "statement": "Without cancellation, a parallel block runs every item even if siblings fail, returns success iff all items succeeded, and otherwise returns the error of the item that failed first.", "quantifier": "every block, schedule, outcomes", "why_tests_cant": "interleavings", "anchors": ["internal/runner/parallel.go:executeParallelInterleaved"]}
{"id": "C27", "title": "Runs never deadlock and always terminate", "statement": "From every reachable state of a run some goroutine can step unless the run has returned, and every schedule is finite when commands terminate.", "quantifier": "every task map (even cyclic), schedule", "why_tests_cant": "liveness over all schedules, incl. semaphore and wait-group interplay", "anchors": ["internal/runner/parallel.go:executeParallelInterleaved", "internal/runner/runner.go:runTask"]}
{"id": "C28", "title": "Dry run executes nothing", "statement": "With dry-run set, no command is started and no prompt is asked, for any task map.", "quantifier": "every task map and requested task", "why_tests_cant": "all code paths", "anchors": ["internal/runner/runner.go:executeTask", "internal/runner/runner.go:executeCommand", "internal/runner/parallel.go:executeRunItem"]}
{"id": "C29", "title": "Circular-dependency errors at run time mean a real cycle", "statement": "A run reports a circular dependency only if the task graph has a cycle.", "quantifier": "every task map, schedule", "why_tests_cant": "in parallel branches `running` also means `being run by a sibling`", "anchors": ["internal/runner/runner.go:runTask", "internal/runner/parallel.go:syncState.claim"]}
{"id": "C30", "title": "Items excluded by platform or `when` never run", "statement": "A run item whose platforms list excludes the current OS, or whose `when` evaluates to false, is not executed, wherever it is written.", "quantifier": "every item at every position, every variable map", "why_tests_cant": "children of a parallel block take another path", "anchors": ["internal/runner/runner.go:executeTask", "internal/runner/runner.go:shouldSkipRunItem", "internal/runner/parallel.go:executeParallelInterleaved", "internal/babfile/run.go:matchesPlatform"]}
{"id": "C31", "title": "A prompt's answer stays in the task that asked", "statement": "The variable set by a prompt is visible to later items of the same task and to no other task.", "quantifier": "every task map, prompt answers, order of tasks", "why_tests_cant": "aliasing of Go maps decides it", "anchors": ["internal/runner/runner.go:executeTask", "internal/interpolate/interpolate.go:ResolveVarsWithLocation"]}
{"id": "C32", "title": "Precedence of silent and output", "statement": "For a command, the first set value among command, enclosing task-reference/parallel override, task, global decides silent (default false) and output (default true).", "quantifier": "every combination of set/unset values and nesting", "why_tests_cant": "all nestings of overrides", "anchors": ["internal/runner/runner.go:isSilent", "internal/runner/runner.go:isOutput", "internal/runner/runner.go:firstNonNil", "internal/runner/runner.go:executeCommand", "internal/runner/parallel.go:executeRunItem"]}
{"id": "C33", "title": "Environment precedence of a command", "statement": "A command sees for each variable: its own value, else the task's, else the included file's/global one, else bab's own (color hints), else the inherited OS value.", "quantifier": "every set of maps, every variable", "why_tests_cant": "all overlaps", "anchors": ["internal/babfile/env.go:MergeEnvMaps", "internal/babfile/env.go:MergeEnv", "internal/runner/runner.go:runCommandWithWriters", "internal/runner/runner.go:executeCommand"]}
{"id": "C34", "title": "Working directory of a command", "statement": "The directory is the first non-empty of command, task, global dir; relative ones are taken from the directory of the file that defines the task; if none is set it is that directory; a missing or non-directory path is an error and nothing is run.", "quantifier": "every combination, every file system", "why_tests_cant": "all combinations", "anchors": ["internal/runner/runner.go:resolveDir"]}
{"id": "C35", "title": "A validated Babfile never hits an unknown task at run time", "statement": "If Parse succeeded, running any of its tasks or aliases never fails with task-not-found, in any schedule; running any other name fails with task-not-found before anything is executed.", "quantifier": "every Babfile, schedule, outcome", "why_tests_cant": "must hold along all paths", "anchors": ["internal/runner/runner.go:runTask", "internal/runner/parallel.go:preResolveDeps", "internal/parser/validate.go:validateAll"]}
{"id": "C36", "title": "Line output does not depend on how bytes were chunked", "statement": "For any way of splitting a byte stream into writes, followed by a flush, the emitted lines are the lines of the whole stream, in order, with nothing lost or duplicated.", "quantifier": "every byte stream, every chunking", "why_tests_cant": "unbounded chunkings, partial lines", "anchors": ["internal/runner/writer.go:lineBuffer.process", "internal/runner/writer.go:lineBuffer.flush"]}
{"id": "C37", "title": "Parallel output lines are never torn or mixed", "statement": "With several prefixed writers sharing one destination, for every interleaving of their writes and flushes the destination is a sequence of whole prefixed lines, and the lines of each writer are exactly its own stream's lines in order.", "quantifier": "any number of writers, any interleaving", "why_tests_cant": "interleavings", "anchors": ["internal/runner/writer.go:PrefixWriter.Write", "internal/runner/writer.go:PrefixWriter.Flush", "internal/runner/parallel.go:executeParallelInterleaved"]}
{"id": "C38", "title": "Emitted lines contain no dangerous control characters", "statement": "A line emitted from input without escape introducers contains no byte below 0x20 except tab; printable text is unchanged.", "quantifier": "every line", "why_tests_cant": "all byte strings incl. invalid UTF-8", "anchors": ["internal/runner/writer.go:sanitizeLine", "internal/runner/writer.go:stripControlChars", "internal/runner/writer.go:isUnsafeControl"]}
{"id": "C39", "title": "Line content survives CRLF line ends", "statement": "A line terminated by CRLF is emitted with the same text as one terminated by LF.", "quantifier": "every line", "why_tests_cant": "all contents; carriage-return handling drops everything before the last CR", "anchors": ["internal/runner/writer.go:resolveCR", "internal/runner/writer.go:lineBuffer.process"]}
{"id": "C40", "title": "Parallel items have distinct keys", "statement": "Different positions in the (nested) parallel tree have different keys, so output is never shown under another item.", "quantifier": "every pair of paths of any depth", "why_tests_cant": "unbounded paths", "anchors": ["internal/runner/parallel.go:pathToKey", "internal/tui/parallel.go:itemKey"]}
{"id": "C41", "title": "Each parallel item shows its own latest lines", "statement": "After any message sequence, an item's displayed lines are the last n (grouped) or all (tabs) output lines sent for it since it last got children, its status reflects its start/done messages, and messages for one item never change another.", "quantifier": "every message sequence", "why_tests_cant": "all histories", "anchors": ["internal/tui/parallel.go:baseModel.handleMsg"]}
{"id": "C42", "title": "Item colors stay in the terminal palette", "statement": "The color of any item at any nesting depth is a valid 256-palette index in [16,231], and dimming never brightens a channel.", "quantifier": "every path, every depth", "why_tests_cant": "unbounded depth", "anchors": ["internal/runner/writer.go:colorForPath", "internal/runner/writer.go:dimColor", "internal/theme/theme.go:ParallelBaseColors"]}
{"id": "C43", "title": "Picker cursor and window stay consistent", "statement": "After any sequence of keys, typing and resizes, the cursor points at an existing match (if any), is inside the visible window, Enter selects exactly the task under the cursor, and Esc/Ctrl+C selects nothing.", "quantifier": "every event sequence, every match list", "why_tests_cant": "all histories", "anchors": ["internal/tui/picker/model.go:moveCursor", "internal/tui/picker/model.go:adjustScroll", "internal/tui/picker/update.go:Update"]}
{"id": "C44", "title": "Picker search is sound, complete and ordered", "statement": "Search results are exactly the tasks whose name or an alias matches the query, each once, ordered by score then name; with an empty query all tasks are listed by name; the result does not depend on map order.", "quantifier": "every task set, query, matcher scores", "why_tests_cant": "all sets", "anchors": ["internal/tui/picker/match.go:search", "internal/tui/picker/match.go:searchAliases", "internal/tui/picker/model.go:New"]}
{"id": "C45", "title": "The update cache is crash-safe", "statement": "If bab dies at any point while saving the cache, a later load sees either the complete old or the complete new record (never a mix), and leftover temp files are never read.", "quantifier": "every crash point, every failing system call", "why_tests_cant": "crash points", "anchors": ["internal/update/cache.go:saveCache", "internal/update/cache.go:loadCache", "internal/update/cache.go:cleanupTempFiles"]}
{"id": "C46", "title": "Update notices only for strictly newer versions, and at most one fetch per 24h", "statement": "A notice is shown only if checking is enabled and the cached version is strictly newer than the current one; no network refresh happens while a cache record younger than 24h (and not from the future) exists. A refresh asks with the recorded ETag, and what it records is the release the server has, also when the server only answers that nothing changed. A check on demand announces exactly a version the server names that is newer, and records it in any case.", "quantifier": "every cache content, clock, environment", "why_tests_cant": "all combinations", "anchors": ["internal/update/update.go:CheckCached", "internal/update/update.go:StartBackgroundRefresh", "internal/update/update.go:shouldSkip", "internal/update/update.go:isNewer", "internal/update/cache.go:isValid", "internal/update/update.go:ForceCheck", "internal/update/update.go:fetchLatestVersion"]}
{"id": "C47", "title": "The nearest Babfile is used", "statement": "The Babfile found is in the closest ancestor directory that has any of the accepted names, and within it the first name in the documented order; if none exists up to the root, an error is returned; the search terminates.", "quantifier": "every working directory, every file system", "why_tests_cant": "unbounded depth", "anchors": ["internal/finder/finder.go:FindBabfile"]}
{"id": "C48", "title": "Suggestions are deterministic and best", "statement": "The `did you mean` suggestion is a candidate with maximal similarity of at least 50, ties going to the shorter then alphabetically smaller one, independent of the order candidates are collected in.", "quantifier": "every target, candidate list and order", "why_tests_cant": "map order, ties", "anchors": ["internal/errs/suggest.go:FindSimilar", "internal/errs/suggest.go:similarity"]}
{"id": "C49", "title": "Completion lists exactly the matching tasks and aliases", "statement": "Completions are, sorted, one entry for each task name and each alias starting with the typed prefix, and nothing after the first argument.", "quantifier": "every Babfile, prefix, map order", "why_tests_cant": "map order", "anchors": ["cmd/complete.go:completeTaskNames"]}
{"id": "C50", "title": "The task tree shows every task exactly once", "statement": "Listing shows for every task one node at the path given by its colon-separated parts carrying its description and aliases, and no node that is not on the path of a task; the result does not depend on map order.", "quantifier": "every task set, map order", "why_tests_cant": "map order, shared prefixes", "anchors": ["cmd/list.go:runList", "cmd/list.go:sortedKeys"]}
{"id": "C51", "title": "Exit status", "statement": "The process exits 0 iff the command returned no error or an error caused by cancellation, otherwise 1.", "quantifier": "every error value and wrapping depth", "why_tests_cant": "wrapping depth is unbounded", "anchors": ["main.go:run", "main.go:isCancellation"]}
{"id": "C52", "title": "Non-interactive prompts use only declared defaults", "statement": "Without a terminal a prompt returns its (normalised) default, a confirm returns only true/false, a password prompt always fails, and a prompt without default fails.", "quantifier": "every prompt definition", "why_tests_cant": "all types and defaults", "anchors": ["internal/tui/prompt.go:handleNonInteractive", "internal/tui/prompt.go:normalizeConfirmDefault"]}
{"id": "C53", "title": "A prompt's answer satisfies its declared constraints", "statement": "The value stored by a number, select, multiselect or input prompt satisfies min/max, options and validate.", "quantifier": "every prompt definition and user input", "why_tests_cant": "all inputs", "anchors": ["internal/tui/prompt.go:runNumber", "internal/tui/prompt.go:runMultiselect", "internal/tui/prompt.go:handleNonInteractive", "internal/parser/unmarshal.go:validatePromptConstraints"]}
{"id": "C54", "title": "A parsed prompt is well-formed", "statement": "If parsing succeeds every prompt has a valid variable name, a known type, a message, options iff it is a select/multiselect, defaults among the options, min <= max, and an integer default for numbers; and this membership survives interpolation.", "quantifier": "every prompt definition", "why_tests_cant": "all combinations of fields", "anchors": ["internal/parser/unmarshal.go:validatePromptRun", "internal/runner/runner.go:interpolatePrompt"]}
{"id": "C55", "title": "Parsing never silently drops a task or run item", "statement": "If parsing a document succeeds, each entry under tasks became a task and each entry of each run (and parallel) list became exactly one run item, in order.", "quantifier": "every YAML document tree", "why_tests_cant": "error flags are threaded by hand through many functions", "anchors": ["internal/parser/unmarshal.go:unmarshalBabfile", "internal/parser/unmarshal.go:parseTasks", "internal/parser/unmarshal.go:parseRunItems", "internal/parser/unmarshal.go:parseRunItem", "internal/parser/unmarshal.go:parseParallelRun"]}
{"id": "C56", "title": "Parsed run items are well-formed", "statement": "If parsing succeeds, each run item has exactly one kind, log levels and platforms are known values, parallel blocks are non-empty, have limit >= 0, a valid mode, and contain neither prompts nor parallel blocks.", "quantifier": "every YAML document tree", "why_tests_cant": "all documents", "anchors": ["internal/parser/unmarshal.go:parseRunItem", "internal/parser/unmarshal.go:parseParallelRun", "internal/parser/unmarshal.go:buildLogRun", "internal/parser/unmarshal.go:parsePlatforms"]}
{"id": "C57", "title": "Duplicate task names are rejected", "statement": "A tasks mapping with two equal keys makes parsing fail.", "quantifier": "every document", "why_tests_cant": "any position and number", "anchors": ["internal/parser/unmarshal.go:parseTasks"]}
{"id": "C58", "title": "All problems of a document are reported at once", "statement": "Each offending task, run item or setting contributes its own error; parsing fails iff at least one was found.", "quantifier": "every document", "why_tests_cant": "any number of problems", "anchors": ["internal/parser/unmarshal.go:unmarshalBabfile", "internal/errs/errs.go:ValidationErrors"]}
{"id": "C59", "title": "YAML anchors/aliases mean the same as writing the value out", "statement": "Replacing a YAML alias by the node it refers to does not change the parse result.", "quantifier": "every document with aliases", "why_tests_cant": "any position", "anchors": ["internal/parser/unmarshal.go:parseRunFields", "internal/parser/unmarshal.go:parseTask"]}
{"id": "C60", "title": "Command-line mode precedence", "statement": "Completion, validate, list, run and interactive modes are chosen in that precedence and only the run and interactive modes can execute tasks. bab fails exactly when a step of its mode does, with the error of the first one that does: a Babfile that cannot be loaded, a task that fails, a picker that cannot be shown, an unknown shell.", "quantifier": "every combination of flags and arguments", "why_tests_cant": "all combinations", "anchors": ["cmd/root.go:run"]}
{"id": "C61", "title": "The reported include cycle is the actual include path", "statement": "When parsing fails because of a circular include, the reported chain lists the files from the root file to the file that was reached again, each including the next.", "quantifier": "every finite include graph with a cycle", "why_tests_cant": "unbounded cycles; with file names that happen to be alphabetical the wrong order is invisible", "anchors": ["internal/parser/parser.go:chainFromVisited", "internal/parser/parser.go:parseFile"]}
{"id": "C62", "title": "Every failed run has a real reason", "statement": "Whenever a run returns an error, the error it carries really occurred: the named command was run and failed, the named directory was checked and is not one, the prompt was asked and failed, the condition, variable, template or environment value really does not resolve with the values visible there, the run really was cancelled. A run never fails without such a cause and never fails because of an internal limit.", "quantifier": "every task map, every schedule, every outcome of commands, prompts and directory checks, every cancellation", "why_tests_cant": "errors travel through nested tasks, dependencies and concurrent blocks; a test sees only the chosen few paths", "anchors": ["internal/runner/runner.go:runTask", "internal/runner/runner.go:executeTask", "internal/runner/parallel.go:executeParallel"]}
{"id": "C63", "title": "A run does nothing that was not asked for", "statement": "Every command, prompt and log of a run belongs to the task that was asked for or to one it leads to through dependencies and task references.", "quantifier": "every task map, every schedule, every outcome", "why_tests_cant": "absence of foreign effects along all schedules", "anchors": ["internal/runner/runner.go:runTask", "internal/runner/parallel.go:preResolveDeps"]}
{"id": "C64", "title": "A multiselect answer can be read back", "statement": "If no option of a multiselect prompt is empty or contains a comma, the stored text determines which options were picked: cutting it at the commas gives them, in the order of the options. With commas inside options the stored text is ambiguous.", "quantifier": "every multiselect prompt and every dialogue with it", "why_tests_cant": "all option lists and selections", "anchors": ["internal/tui/prompt.go:runMultiselect"]}
{"id": "C65", "title": "What the published schema accepts, the parser accepts", "statement": "A document that is valid against the published JSON schema, has no aliases and no integers beyond 64 bits is decoded without an error, except exactly when the settings of one of its prompts contradict each other (options without a choice prompt, a default that is no option, min above max, ...). With aliases this fails, and the parser takes documents the schema refuses.", "quantifier": "every YAML document and every pair of YAML libraries that agree on scalars", "why_tests_cant": "all documents of a schema; tests check single documents against one side", "anchors": ["schema/babfile.schema.json", "internal/schema/schema.go", "internal/babfile/babfile.go:Schema.JSONSchema", "internal/babfile/unmarshal.go:UnmarshalYAML"]}
{"id": "C66", "title": "The tabs display always shows an item of the block, up to date", "statement": "After any presses of Tab and Shift+Tab, any resizing and any messages, the tab in front is the one reached by counting around the circle, its item exists, and the text below it is everything that item printed (since the last block it ran), or, while it runs a block, one line per item of that block with its mark and its error or last line. After Ctrl-C the marks stay as they were until something else happens, and an item that is over without output is still called running.", "quantifier": "every number of items and every interleaving of keys, resizes and messages that blocks can send", "why_tests_cant": "unbounded event sequences; wrap-around and stale text only show in particular orders", "anchors": ["internal/tui/parallel_tabs.go:Update", "internal/tui/parallel_tabs.go:updateViewport", "internal/tui/parallel_tabs.go:buildContent"]}
{"id": "C67", "title": "The grouped display shows every item once, within the terminal", "statement": "At any moment of a block the grouped display names every item there is exactly once, the items of the outermost block in their order and each followed by those it runs; no row is wider than the terminal; an item without a block of its own shows its last five lines in order, whole where there is room, in at most seven rows and exactly seven while it runs and has printed something; its title carries the mark that its messages call for, if there is room; an item inside another one has one row with its mark, its name and, unless it has succeeded, the latest of its last five lines that is not blank, if there is room. When the block is over the display shows nothing.", "quantifier": "every number of items, every terminal width, every sequence of messages that blocks can send, every width function and cutting function that cuts to the width asked for", "why_tests_cant": "unbounded trees of items, message sequences and widths", "anchors": ["internal/tui/parallel_grouped.go:View", "internal/tui/parallel_grouped.go:renderItem", "internal/tui/parallel.go:statusIcon", "internal/tui/parallel.go:truncateLine"]}
{"id": "C68", "title": "The picker shows every task's text unchanged, marks what was found, and puts the cursor on the task Enter takes", "statement": "Each line of the picker, read without colours, is the task's name, its aliases in brackets and its description. In a name, just the characters at the places the search reports are marked, and the runs of marked and unmarked characters are as long as possible. If a task was found by an alias, one piece reading like that alias is marked, and it is that alias unless its text also occurs in an alias listed before it. Exactly one line carries the cursor: that of the task Enter takes. If nothing matches, one line without a cursor says so and Enter selects nothing; after the end nothing is drawn.", "quantifier": "every list of tasks, every search function, every sequence of keys, every name that is UTF-8 text", "why_tests_cant": "unbounded names, index lists, alias lists and key sequences", "anchors": ["internal/tui/picker/match.go:highlight", "internal/tui/picker/match.go:highlightAlias", "internal/tui/picker/view.go:renderLine", "internal/tui/picker/view.go:View"]}
{"id": "C69", "title": "The place an error names is the place of the problem", "statement": "The path an error prints leads, from the current directory, to the same file as the path the error is about: as the names on the way down if the file is below the current directory and the first name does not begin with two dots, and unchanged if it is elsewhere. Two errors printed with the same place have the same line and the same file, as long as both give a column or neither does.", "quantifier": "every absolute current directory, every path (clean or not), every line and column", "why_tests_cant": "all paths with dots, double slashes and shared prefixes; the read-back property compares all pairs of errors", "anchors": ["internal/errs/location.go:RelativePath", "internal/errs/location.go:FormatLocation"]}
{"id": "C70", "title": "Every line of an interleaved block tells its item, and the summary tells how every item ended", "statement": "An item is called by its label, else by the task it runs, else by the first twenty characters of its command or message. All prefixes of a block have as many characters, and no line can be read as a line of two items unless their names are equal but for spaces at the end. A name of one line gives a prefix of one line. The summary names every item in order, and two different outcomes of the same items never have the same summary.", "quantifier": "every block, every labels, commands and messages that are UTF-8 text, every line of output", "why_tests_cant": "all label lengths, multi-byte characters and lines that imitate prefixes", "anchors": ["internal/babfile/run_parallel.go:ItemLabel", "internal/babfile/run_parallel.go:truncateRunes", "internal/runner/writer.go:NewPrefixWriter", "internal/output/output.go:RenderParallelDone"]}
{"id": "C71", "title": "A YAML error keeps its line and its text", "statement": "The line reported for a YAML error is the number after the first \"line \" of the YAML library's text, and there is none if no number follows. For the two forms of that text the library uses, the reported message is the library's message without its prefix and line, if the message does not itself contain a line number.", "quantifier": "every error text, every number below 2^63", "why_tests_cant": "all texts, also those quoting the document", "anchors": ["internal/errs/yaml.go:ExtractYAMLLocation", "internal/errs/yaml.go:CleanYAMLError"]}
{"id": "C72", "title": "Output of blocks inside blocks is whole lines that carry all prefixes", "statement": "With parallel blocks nested to any depth whose items are commands or blocks, for every interleaving of all writes and flushes: each terminal gets a sequence of whole lines. Each of them is one line of one command, with the prefix of every item the command is in, the outermost first. The lines of each command are exactly the lines of its output, in their order.", "quantifier": "any tree of blocks, any number of commands, any division of their output into writes, any interleaving", "why_tests_cant": "interleavings of nested locks", "anchors": ["internal/runner/writer.go:PrefixWriter.Write", "internal/runner/writer.go:PrefixWriter.Flush", "internal/runner/parallel.go:executeParallelInterleaved"]}
{"id": "C73", "title": "Nested blocks never hang on their output", "statement": "With parallel blocks nested to any depth, for every interleaving: as long as not all output is written, some writer can go on, no interleaving goes on for ever, and every interleaving comes to a state where all output is written.", "quantifier": "any tree of blocks, any calls, any interleaving", "why_tests_cant": "deadlocks show up in few interleavings", "anchors": ["internal/runner/writer.go:PrefixWriter.Write", "internal/runner/writer.go:PrefixWriter.Flush", "internal/runner/parallel.go:executeParallelInterleaved"]}
{"id": "C74", "title": "An item that does several things shows them one after another", "statement": "With parallel blocks nested to any depth, where an item runs commands and inner blocks one after another: for every interleaving the bytes an item shows are those of its first command or block, then those of the next, and so on. A block's part consists of whole prefixed lines, those of each inner item in order. If every command ends its last line, the lines shown are the lines of the parts. Waiting for earlier things never leads to a deadlock.", "quantifier": "any tree of blocks, any sequences of commands and blocks, any output, any interleaving", "why_tests_cant": "interleavings of nested locks and waits", "anchors": ["internal/runner/runner.go:executeTask", "internal/runner/runner.go:runCommandWithWriters", "internal/runner/parallel.go:executeParallelInterleaved", "internal/runner/writer.go:PrefixWriter.Write"]}
{"id": "C75", "title": "What an error message says can be read back", "statement": "Names in messages are quoted so that the name can be read back from the text and no control character reaches the terminal. Two errors of one file that print the same text are the same error, about the same task, item and value, at the same line; with file names without a colon the file is also the same. This holds for every error of a document that has no cause, and for missing tasks and aliases. A chain of names can be read back when no name contains the arrow. A missing task or variable is named with the closest existing name, and with none only if no name is close.", "quantifier": "any names (any bytes), files, lines, lists of existing names; any decision what is printable that leaves out control characters", "why_tests_cant": "injectivity over all texts, including names with quotes, escapes, digits and newlines", "anchors": ["internal/errs/parse.go:ParseError.Error", "internal/errs/parse.go:TaskNotFoundError.Error", "internal/errs/parse.go:CircularDepError.Error", "internal/errs/parse.go:DuplicateAliasError.Error", "internal/errs/interpolate.go:VarNotFoundError.Error", "internal/parser/unmarshal.go"]}
{"id": "C76", "title": "An error names the place of the problem", "statement": "An error about a run item names a task of the file and an index, and its line lies in the entry with that index of the task's run list, or of the list of a parallel block in it. An error about a missing task names the task that refers to it, as seen from the root file, with the line of its list of dependencies or of the item with the reference. An error about an alias names a task that declares it, with the line of the task's name, and for a repeated alias another task that declares it. The file printed is the one that contains the task.", "quantifier": "any document tree, any tree of included files, any iteration orders", "why_tests_cant": "nesting, includes and indices have no bound", "anchors": ["internal/parser/unmarshal.go:parseRunItems", "internal/parser/unmarshal.go:parseRunItem", "internal/parser/validate.go:validateDependencies", "internal/parser/validate.go:validateRunTaskRefs", "internal/parser/validate.go:validateAliases", "internal/parser/parser.go:Parse", "internal/parser/include.go:resolveInclude"]}
{"id": "C77", "title": "Cancelling a run ends its commands", "statement": "After an interrupt (or quitting the display) bab kills each running command; afterwards no process that the command started is alive, the command's call returns, and processes that do not belong to it are untouched. The result of a command is success exactly if its first process ended with status 0 and it was not killed; it is `cancelled` only if there was a cancellation.", "quantifier": "every command, every tree of processes it may start, every interleaving of their actions, of signals and of bab's goroutines", "why_tests_cant": "process trees and the races between exit, signal and kill are unbounded and timing dependent", "anchors": ["internal/runner/process_unix.go:signalProcessGroup", "internal/runner/process_unix.go:sysProcAttr", "internal/runner/runner.go:runCommandWithWriters", "main.go:run"]}
{"id": "C78", "title": "Hiding the output of a command changes nothing else", "statement": "A command whose output is hidden (`output: false`) or goes to a parallel block ends at the same time and with the same result as when its output is shown.", "quantifier": "every command, every tree of processes, every interleaving", "why_tests_cant": "depends on background processes and on how output descriptors are passed on", "anchors": ["internal/runner/runner.go:runCommand", "internal/runner/runner.go:runCommandWithWriters"]}
{"id": "C79", "title": "A command can ask at the terminal", "statement": "A command that is run with its output shown has the terminal as input: when it reads from it, it gets what the user types.", "quantifier": "every command, every tree of processes, every interleaving", "why_tests_cant": "tests have no controlling terminal, and job control depends on process groups", "anchors": ["internal/runner/process_unix.go:sysProcAttr", "internal/runner/runner.go:runCommand"]}
{"id": "C80", "title": "Parallel items never race on variables", "statement": "While a parallel block runs, no map of variables is written by one item while another item reads or writes it (Go ends the program when it notices that), however the items are scheduled.", "quantifier": "every set of tasks, every configuration, every scheduling of the items of all (also nested) parallel blocks, all answers of users and commands", "why_tests_cant": "a race needs one of unboundedly many schedules; tests see one, and the race detector reports only what happened", "anchors": ["internal/runner/runner.go:executeTask", "internal/runner/parallel.go:executeParallel", "internal/runner/parallel.go:executeRunItem"]}
{"id": "C81", "title": "A dry run shows what a run does", "statement": "Every line that `--dry-run` prints is carried out by a run of the same task that succeeds: the same command text, in the same directory, with as many added environment variables, the same message, the same question. And everything a run does has such a line, its own or the line of the task reference or parallel block it is part of. A dry run succeeds whenever the run would, and lists things in the order in which they are done.", "quantifier": "every set of tasks, every configuration, every dry run and every run of the same task, whatever commands, users and the file system answer, every scheduling", "why_tests_cant": "relates two executions with unboundedly many schedules and answers", "anchors": ["internal/runner/runner.go:executeRunItem", "internal/runner/runner.go:executeTask", "internal/runner/runner.go:runCommand", "internal/runner/parallel.go:executeRunItem"]}
{"id": "C82", "title": "Output from inside a parallel block is shown under the items it comes from", "statement": "What a command in a parallel block writes, the line naming it, the lines naming tasks and log items are shown under the label of the item they come from, and of the item of every enclosing block, in order, however deep the blocks and however many task references lie in between; in the TUI, under the indices of all these items. Only what is in no block is written to bab's own output directly. Two items of a block that have different labels are never shown under the same labels, two items at different indices never under the same key.", "quantifier": "every set of tasks, every nesting of blocks and references, every mode of every block, every scheduling and every outcome of commands", "why_tests_cant": "nesting depth and interleavings are unbounded; a test sees a few", "anchors": ["internal/runner/parallel.go:executeInterleaved", "internal/runner/parallel.go:executeTUI", "internal/runner/parallel.go:executeRunItem", "internal/runner/runner.go:runTask", "internal/runner/runner.go:runCommand"]}
{"id": "C83", "title": "The summary of a block tells how its items ended", "statement": "When the TUI of a block closes, its summary has one sign for every item, in order: success exactly for the items that were started and ended without an error, failure exactly for those that failed and those that were never started. It is shown where the block is, and not if the block is silent.", "quantifier": "every block in every set of tasks, every limit, every scheduling, every outcome and cancellation", "why_tests_cant": "depends on every interleaving of starts, failures and cancellation", "anchors": ["internal/runner/parallel.go:executeTUI", "internal/runner/parallel.go:runParallel", "internal/output/output.go:ParallelDone"]}
{"id": "C84", "title": "Standard output carries only what commands write", "statement": "bab writes its own lines (task names, commands, log items, summaries) to standard error, so that standard output can be piped; and a log item of level debug is shown with --verbose only.", "quantifier": "every set of tasks, every run", "why_tests_cant": "every line of every run would have to be seen", "anchors": ["internal/runner/parallel.go:executeRunItem", "internal/runner/runner.go:executeLog", "internal/output/output.go"]}
{"id": "C85", "title": "Without parallel blocks, a run does the same every time", "statement": "Two runs of the same task in the same configuration that are given the same answers (directories, exit codes, answers to prompts) do the same things in the same order: the same commands in the same directories with the same environment, the same lines, the same questions; at any time one of them has done what the other did and perhaps more, and both end with the same error or none. Go's random order of maps is not observable. This holds for every dry run, blocks or not.", "quantifier": "every set of tasks without parallel blocks (any for a dry run), every configuration, any two executions, every sequence of answers, every iteration order of every map at every use", "why_tests_cant": "relates two executions over all iteration orders of all maps; map order is random and a test sees a few", "anchors": ["internal/runner/runner.go:runTask", "internal/runner/runner.go:executeTask", "internal/runner/runner.go:interpolateEnv", "internal/interpolate/interpolate.go:ResolveVarsWithLocation", "internal/babfile/env.go"]}
{"id": "C86", "title": "Whatever the schedule, a run that succeeds does the same things", "statement": "However the items of parallel blocks are scheduled: what some run of a task did, however far it got, every run of the same task that succeeds does too, if questions are answered the same way. A command has the same text, the same directory and the same added environment variables, a message the same text, a question the same wording; and a task that was entered in one is complete in the other. So two runs that succeed do the same set of things; only the order differs.", "quantifier": "every set of tasks with any nesting of blocks, references and dependencies, every configuration, every pair of executions (all schedules of all goroutines, all results of commands, all map orders) the second of which succeeds uncancelled", "why_tests_cant": "relates two executions over all schedules; a test sees one schedule and cannot enumerate them", "anchors": ["internal/runner/parallel.go:executeParallel", "internal/runner/parallel.go:preResolveDeps", "internal/runner/runner.go:runTask", "internal/runner/runner.go:executeTask"]}
{"id": "C87", "title": "Whether a run succeeds does not depend on the schedule of independent items", "statement": "Two runs of the same task, in surroundings where the same command, question or directory turns out alike in both and nobody interrupts either: if one succeeds, the other fails only if some goroutine of it came to a task that was running at that moment. If the items of every parallel block lead, through run lists, to different tasks (they may share dependencies) and the tasks have no cycle, both succeed or both fail, however their goroutines are scheduled.", "quantifier": "every set of tasks with any nesting of blocks, references and dependencies, every configuration, every pair of finished executions (all schedules, all map orders) in which no answer to a question becomes a global variable", "why_tests_cant": "relates two executions over all schedules, and every reason a run may fail for", "anchors": ["internal/runner/parallel.go:executeParallel", "internal/runner/parallel.go:preResolveDeps", "internal/runner/runner.go:runTask", "internal/runner/runner.go:executeTask"]}
{"id": "C88", "title": "What an accepted Babfile can still fail for", "statement": "If a Babfile is accepted, with all its includes, and the name given is a task or an alias, then the run never comes to a task that does not exist, never to a kind of item it cannot run, and reports a cycle only if two items of some block lead to the same task. The reasons left are: a command, question or directory that failed; an interrupt, or a screen that does not open; a text that mentions a variable that is not there; a task all of whose items are for other platforms; and a command made of blanks only.", "quantifier": "every YAML library, every set of files with any includes, every name, every configuration, every execution of every run (all schedules, outcomes and cancellations)", "why_tests_cant": "says that no other failure exists in any execution of any accepted file", "anchors": ["internal/parser/parser.go:Parse", "internal/babfile/babfile.go", "internal/runner/runner.go:runTask", "internal/runner/runner.go:executeTask", "internal/runner/parallel.go:executeRunItem"]}
{"id": "C89", "title": "Display settings change what is displayed and nothing else", "statement": "Take two Babfiles that differ only in silent, output, mode, color, labels, descriptions, aliases and the lines things stand on, and let standard error be a terminal for one and not for the other. Whatever a run of the one does, a run of the other can do with the same end: the same commands with the same texts, directories and environments (apart from hints about colour), the same questions and answers, the same log lines, the same items skipped and tasks completed, in the same order. This supposes that a TUI can be opened and that nobody quits it. It does not extend to standard input: hiding the output of a command takes its standard input away.", "quantifier": "every pair of task sets that agree up to display, every pair of configurations that do, every root, every execution (all schedules, outcomes, answers, interrupts), finished or not", "why_tests_cant": "relates every execution of one Babfile to an execution of another, for all pairs", "anchors": ["internal/runner/runner.go:executeCommand", "internal/runner/runner.go:runTask", "internal/runner/parallel.go:executeParallel", "internal/runner/parallel.go:executeTUI", "internal/runner/parallel.go:executeInterleaved"]}
{"id": "C90", "title": "An answer reaches only what refers to it", "statement": "Choose the variables that are secret: ones that are asked for, closed under the vars of tasks that are made from them. Let no condition and no env of a task or of the Babfile refer to them. Give the questions for them other answers, whatever the rest of the run is: the run can go on step by step as before, to a result of the same kind. Tasks completed and skipped, items run and skipped, exit codes, and every command, line and question of an item that does not refer to a secret are the same; items that refer to one differ only in their text, environment and directory, and in errors that quote these. An item counts as referring to a secret also when its task has an env with references, because that env is expanded twice. The type password does not hide the answer: a command that refers to it is echoed with it. Lines of --verbose are not covered; one of them shows every answer.", "quantifier": "every configuration and task set, every set of secret variables that is confined, every replacement of answers by task, item and answer, every execution (all schedules, outcomes, answers, interrupts), finished or not", "why_tests_cant": "a statement about pairs of executions: no single run shows that a secret has no influence", "anchors": ["internal/runner/runner.go:executeTask", "internal/runner/runner.go:executeCommand", "internal/runner/runner.go:interpolateEnv", "internal/runner/runner.go:resolveDir", "internal/interpolate/interpolate.go:Interpolate", "internal/interpolate/interpolate.go:ResolveVars"]}
{"id": "C91", "title": "A task does the same whatever other tasks there are", "statement": "Of all the tasks of a Babfile, a run depends only on those that the task it is started with leads to by dependencies and task items. Two sets of tasks that agree on these allow exactly the same runs, event by event, and the same results. So adding tasks and includes to a Babfile, or to a file that it includes, changes nothing for a name or alias that was there before, as long as the result is accepted: the name means the same task and the same runs are possible.", "quantifier": "every configuration, every two task sets that agree where the task leads, every execution (all schedules, outcomes, answers, interrupts), finished or not; every tree of files and every way to add tasks and includes to it", "why_tests_cant": "compares all executions for two Babfiles of any size; a test compares a few executions for one edit", "anchors": ["internal/runner/runner.go:Run", "internal/runner/runner.go:runTask", "internal/runner/runner.go:executeTask", "internal/runner/parallel.go:preResolveDeps", "internal/runner/runner.go:buildChainSlice", "internal/parser/parser.go:Parse", "internal/parser/include.go:resolveInclude"]}
{"id": "C92", "title": "An included Babfile is a module", "statement": "A task of a Babfile does the same whether that file is run directly or is included, under a namespace, by a Babfile that makes no settings of its own (no vars, env, silent, output, dir): for a name or alias of the file, the name with the namespace in front means the included task, and the two allow the same runs, event by event, with the names of tasks prefixed: the same commands with the same environment, directory and standard input, the same questions, answers, logs, skips, cancellations, and the same results with the same reasons. This holds if (1) the `when` of whole tasks refers to the environment only, (2) tasks that ask questions have `vars` of their own, (3) no task redefines a variable that a variable of the file mentions, and (4) parallel blocks do not set `silent` or `output`. Each of these conditions, and the absence of settings, is needed.", "quantifier": "every tree of files, every path and namespace of the include, every iteration order, every name and alias, dry and real runs, every execution (all schedules, outcomes, answers, interrupts), finished or not, in both directions", "why_tests_cant": "compares all executions of two programs of any size, over all schedules and outcomes; a test compares a few executions of one file", "anchors": ["internal/parser/include.go:resolveInclude", "internal/parser/parser.go:Parse", "internal/runner/runner.go:executeTask", "internal/runner/runner.go:runTask", "internal/interpolate/interpolate.go:ResolveVarsWithLocation"]}
{"id": "C93", "title": "An error about a variable names the line of the text with the problem", "statement": "If a run fails because of a variable (undefined, or defined in a circle), the line in the error is the line of a text, in a task the run started, that refers to that variable, which at that moment has no value: for the `when`, the `vars` and the `env` of a task (and the file's `env`) the line of the task; for the texts of an item, its `when`, a command's `env`, and the `dir` filled in for a command, the line of that item. A circle is one of the `vars` of that task.", "quantifier": "every Babfile after loading, every root task, every execution that fails (all schedules, outcomes, answers, interrupts), dry and real runs", "why_tests_cant": "the text, the line and the values of variables at that moment come from any of unboundedly many items, in any schedule; a test checks one message", "anchors": ["internal/runner/runner.go:executeTask", "internal/runner/runner.go:executeCommand", "internal/runner/runner.go:shouldSkipRunItem", "internal/runner/parallel.go:executeRunItem", "internal/interpolate/interpolate.go:ResolveVarsWithLocation"]}
{"id": "C94", "title": "The value of a variable reaches only what refers to it", "statement": "Give some variables of the Babfile other values, or run the same Babfile in another environment of bab. Choose the variables this touches, closed under the vars that are made from them, and let no condition and no env of a task or of the Babfile refer to them. Then the run can go on step by step as before, to a result of the same kind: the same tasks, items, questions, skips, exit codes and order, and every command, line and question of an item that does not refer to one of them is the same; a command differs otherwise only by the environment bab itself was given. If no text refers to them at all, the variables can be added or left out, and the whole run is the same with the same result. An item counts as referring to one also when its task has an env with references, because that env is filled in twice: without this, leaving out a variable no text refers to makes a run fail.", "quantifier": "every configuration and task set, every loaded Babfile, every set of variables that is confined, every other values and other environment, every map order, every execution (all schedules, outcomes, answers, interrupts), finished or not", "why_tests_cant": "a statement about pairs of executions for any two values: no run shows that a value has no influence elsewhere", "anchors": ["internal/interpolate/interpolate.go:Interpolate", "internal/interpolate/interpolate.go:ResolveVarsWithLocation", "internal/runner/runner.go:executeTask", "internal/runner/runner.go:executeCommand", "internal/runner/runner.go:Run"]}
{"id": "C95", "title": "A dependency that an earlier one brings anyway can be listed or left out", "statement": "Add to the dependencies of any tasks some that are implied: listed after a dependency that is the same, or that leads to it through the deps of tasks that have no when. Then every run with the one Babfile can be made with the other, so far and to the end: the same tasks are entered, the same commands, questions and lines come in the same order with the same destinations, and the run ends alike; only the looks at tasks that are found done and the circle shown by a report of circular dependencies may differ. Behind a task with a when a dependency is not implied, since a skipped task is done without its deps, and listed before the one that brings it, it moves work forward.", "quantifier": "every configuration and task set, every number of implied dependencies added to any tasks, also tasks named by items of parallel blocks, every execution (all schedules, outcomes, answers, interrupts), finished or not, dry or not", "why_tests_cant": "a statement about pairs of executions under every schedule; that the extra look finds the task done depends on what other goroutines have done", "anchors": ["internal/runner/runner.go:runTask", "internal/runner/parallel.go:preResolveDeps", "internal/runner/parallel.go:executeParallel"]}
{"id": "C96", "title": "Only different items of one parallel block run at the same time", "statement": "Whenever a command starts while another command is running, there is a parallel block that both are inside of, in different items of it. So commands of one item, also in tasks the item calls, run one after the other; while a command runs, nothing else of the items around it starts; a command outside of all parallel blocks runs alone; and a Babfile without parallel blocks never has two commands running at once. The same holds for what bab itself does: while a command runs, a question is only asked and a line only written for other items of a block around that command, so a question outside of all blocks is asked when nothing runs, and a command outside of all blocks is not disturbed.", "quantifier": "every configuration and task set, every execution (all schedules, outcomes, answers, interrupts), finished or not, any nesting of blocks and tasks", "why_tests_cant": "a statement about all schedules of unboundedly nested goroutines; a test observes the schedules it happens to get", "anchors": ["internal/runner/parallel.go:executeParallelInterleaved", "internal/runner/parallel.go:executeParallelTUI", "internal/runner/runner.go:executeItems", "internal/runner/runner.go:executeCommand"]}
{"id": "C97", "title": "What a run writes is whole lines, each under the labels of its item", "statement": "Without a TUI, when a run is over, what is on its standard output and on its standard error is a sequence of whole lines. Each is a line of one command or of bab itself; for every command that was started the lines are exactly those it wrote on that stream, all of them and in order, and bab's own lines are all there in order. Each line has the label of every parallel block around it in front, the outermost first, no matter what else was running and in which pieces the commands wrote. The last line of an item of a block need not be ended. At any moment before the end the same holds except for the last, unfinished lines of commands that are still running (or whose item is just ending); only the unfinished line of a command outside of all blocks can already be seen. This needs that other commands end their last line, otherwise the next one continues it.", "quantifier": "every configuration without TUI and task set whose labels have no newline, every execution (all schedules, outcomes, answers, interrupts), any nesting of blocks and tasks, all texts written by commands in any pieces at any time", "why_tests_cant": "the interleaving of the writers' buffers with the scheduling of unboundedly nested blocks; tests check one writer at a time", "anchors": ["internal/runner/parallel.go:executeParallelInterleaved", "internal/runner/writer.go:PrefixWriter", "internal/runner/writer.go:lineBuffer", "internal/runner/runner.go:runCommandWithWriters"]}
{"id": "C98", "title": "A prompt shows what the Babfile declares, and accepting it as shown gives the answer of a run without a terminal", "statement": "The first form of a prompt has the prompt's message as title and starts from what the prompt declares: a confirm stands on yes exactly if its default means yes (and on no without a default), an input or a number has the default as its text and the placeholder, a select offers the options in order and stands on the default, a multiselect offers the options in order with exactly the defaults marked, and a password is empty and hidden. A prompt of a known type always shows a form on a terminal. Submitting all forms unchanged gives the same answer as the same prompt gives without a terminal, if it gives one.", "quantifier": "every prompt definition, every message, every dialogue", "why_tests_cant": "unbounded definitions and values; forms need a terminal, so tests cover only the non-interactive half", "anchors": ["internal/tui/prompt.go:RunPrompt", "internal/tui/prompt.go:runConfirm", "internal/tui/prompt.go:runMultiselect", "internal/tui/prompt.go:handleNonInteractive"]}
{"id": "C99", "title": "The limit of a parallel block restricts the order, and nothing else", "statement": "Anything that can happen in a run, at any moment and to its end, can also happen if limits of parallel blocks are raised: the same events in the same order, the same result, also when the run is cancelled; a limit as high as the number of items of the block holds nothing up; and as long as nothing is cancelled the limits can be left out altogether. If two Babfiles differ in the limits of their blocks only, two successful runs of them start the same commands, ask the same questions and log the same messages, in whatever order; and if there is no cycle and the items of each block lead to different tasks, they succeed together or fail together when commands, questions and directories turn out alike.", "quantifier": "every Babfile, every choice of limits, every schedule, every outcome of commands and prompts, every moment of cancellation", "why_tests_cant": "compares all schedules of one program with all schedules of another; a test sees one schedule at a time", "anchors": ["internal/runner/parallel.go:executeParallelInterleaved", "internal/runner/parallel.go:executeParallelTUI"]}
{"id": "C100", "title": "The order of keys in a mapping does not matter", "statement": "Two Babfiles that differ only in the order in which the keys of their mappings are written, at any depth, are accepted together and are the same Babfile: the same tasks, variables, includes and run items with the same values. So a project whose files are the same up to the order of keys loads as the same tasks, or fails with the same error. (Where a key is written twice the order does matter: the last one counts.)", "quantifier": "every YAML tree with distinct keys, every reordering at every level at once, every set of files and every order of Go's map iteration; for any YAML library whose Decode does not look at the order", "why_tests_cant": "the number of orders is factorial in the number of keys and unbounded in depth; a test tries a few", "anchors": ["internal/parser/unmarshal.go:unmarshalBabfile", "internal/parser/unmarshal.go:parseTask", "internal/parser/unmarshal.go:parseRunItem"]}
{"id": "C101", "title": "Keys that bab does not know are ignored, except in a parallel block, where they are an error", "statement": "Adding, changing, moving or removing keys that bab does not know, in the document itself, in any task and in any run item inside or outside of parallel blocks, does not change whether a Babfile is accepted nor anything it means. In a parallel block itself such a key makes the whole Babfile invalid. (So a mistyped setting of a command is accepted silently and has no effect.)", "quantifier": "every YAML tree, every choice of unknown keys with any values, in all places at once; every YAML library", "why_tests_cant": "the unknown keys and their values are unbounded and may stand at any place in any file; a test adds one key to one file", "anchors": ["internal/parser/unmarshal.go:unmarshalBabfile", "internal/parser/unmarshal.go:parseTask", "internal/parser/unmarshal.go:parseRunItem"]}
{"id": "C102", "title": "Switching colours off for a parallel block reaches everything inside of it and nothing else", "statement": "If a parallel block has color: false, every command inside of it, however deep (in tasks called there and in their own parallel blocks), is started with NO_COLOR=1 and TERM=dumb unless the Babfile sets those variables itself. What the terminal shows of such a command does not depend on the escape sequences it writes: a line with the same text shows the same. If the outermost block has the setting, only that block's own label can contain escape sequences. If no block on the way to a command has the setting, nothing is removed from its lines, and inside of a block it is started with FORCE_COLOR=1 and is otherwise told nothing. (The tasks that items of a block without colours depend on run before it, outside of its items; commands in blocks of those are told to use no colours too.)", "quantifier": "every Babfile, every run with any interleaving, failures and cancellations, every text written in any pieces, any nesting of blocks", "why_tests_cant": "the setting is passed along through calls, dependencies and nested blocks of unbounded depth, and the bytes may arrive in any pieces and interleaving", "anchors": ["internal/runner/parallel.go:executeParallel", "internal/runner/writer.go:NewPrefixWriter", "internal/runner/runner.go:runCommandWithWriters"]}
