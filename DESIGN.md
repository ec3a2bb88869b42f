# Design: a Rocq model of bab-sh/bab

## Method

* Prover: Coq 8.16.1. Libraries: std++ (finite maps `gmap`, permutations) and the standard library.
* Byte strings are `list ascii` (`str`), exactly Go's view of a string as bytes. Nothing bounds their length.
* A Go map is a finite map plus an explicit *iteration order*: every `range` over a map takes the list of keys as a
  parameter which is only assumed to be some permutation of the keys. Theorems quantify over it.
* Concurrency: the runner is a program tree (`prog`) run by a small-step machine over goroutines. Every theorem about
  runs quantifies over all schedules, all command outcomes, all prompt answers and all moments of cancellation.
* Slices: where the code's `append` can alias (chains of cycles), slices are modelled with arrays and capacities.
* Files: `X_Model.v` (the code, function by function, each definition citing file and lines), `X_Spec.v` (independent
  specification), `X_Proof.v` and others (lemmas), `P_X.v` (the theorems, `Print Assumptions`, and examples that meet
  the hypotheses).
* Where the code does not satisfy the property as a user would state it, the theorem `..._refuted` gives a concrete
  witness, and the strongest restricted statement that we could prove stands beside it with the suffix `_partial`.

## Trusted base

* Coq's kernel (including `vm_compute`), the statements in `P_*.v` and `*_Spec.v`, and the fidelity of `*_Model.v`.
* `Print Assumptions` is issued for every theorem in the manifest. Each answers "Closed under the global context":
  no axioms. Loading std++ loads `Coq.ssr.ssrunder`, whose opaque module declares seven constants
  (`Under_rel.Under_rel`, `Under_relE`, `Under_rel_from_rel`, `Over_rel`, `over_rel`, `over_rel_done`,
  `under_rel_done`); `coqchk` lists them as axioms of the standard library. No theorem uses them.
* Nothing is admitted; no axioms, functors, module types, plugins; no kernel check is switched off.

## What is modelled, and from what it abstracts

| code | file | abstracted |
|------|------|------------|
| internal/interpolate | `Interp_Model` | suggestions in errors (text: `Loc_Model`); the lines of errors are in `Run_Model` |
| internal/condition | `Cond_Model` | nothing; the two regular expressions are written as matchers |
| internal/parser/validate.go | `Valid_Model` | error texts (errors are values; texts in `Msg_Model`) |
| internal/parser/parser.go, include.go | `Include_Model`, `Run_Main` | files are given decoded (composed with `Doc_Model` in `P_Doc`) |
| internal/parser/unmarshal.go | `Doc_Model` | `yaml.v3` is the record `yaml`: bytes to tree, and `Node.Decode` per type; texts of errors (all parts kept) |
| internal/babfile, schema/ | `Types_Model`, `Schema_Model` | descriptions and defaults in the schema |
| internal/runner/runner.go, parallel.go | `Run_Model` | processes and prompts are answers of the environment; see below |
| internal/runner/writer.go, tui/parallel.go | `Out_Model`, `Utf8_Model` | `ansi` sequences are recognised by an arbitrary function with the contract `transparent` |
| internal/tui/prompt.go | `Prompt_Model` | forms of `huh`: contract `possible` |
| internal/tui/picker, tui.go | `Pick_Model` | `sahilm/fuzzy`: contract in `Pick_Spec`; `strings.ToLower`: `lower_ok` |
| internal/update | `Update_Model` | HTTP, JSON and `go-version` are parameters; `CreateTemp` gives a fresh name |
| internal/finder, cmd, main.go | `Cli_Model` | cobra's parsing of the arguments: the model starts with its result |
| internal/runner/writer.go inside itself | `Nest_Model` | the terminal takes every byte; goroutines of the writers only |
| the order of commands and blocks of an item | `Order_Model` | a relation "must have ended before" between goroutines |
| internal/tui/parallel.go, the drawing | `View_Model` | colours and borders; widths count runes, not cells |
| internal/tui/picker, the list | `Mark_Model` | styles are marks around pieces of text |
| internal/errs (locations, YAML errors), cmd's relative paths | `Loc_Model` | styles |
| babfile.ItemLabel, output.RenderParallelDone | `Label_Model` | styles |
| internal/errs (texts of the errors), the messages of unmarshal.go and validate.go, `%q` | `Msg_Model` | `strconv.IsPrint` is any predicate; prefix and rest of a format are written as one |
| internal/runner/process_unix.go, runner.go 474-534, the signals of main.go | `Proc_Model` | `os/exec` and POSIX (groups, job control, pipes, reuse of process numbers), from their documentation |
| parallel.go 116-166 with writer.go, during a run | `Screen_Model` | calls of writers are atomic; the text of bab's own lines and the styling of labels are any functions |
| path/filepath | `Path_Model` | written from the documentation, Unix only |

Not modelled: scanning YAML (the tree is the start; an anchor that contains itself is not representable, and the
library's "excessive aliasing" error only occurs as a failing `Decode`); `process_windows.go` and Windows
(case-insensitive environment, its paths; only `saveCache`'s rename is considered); colours and borders; output
destinations that fail. The writers of blocks composed with the runner's schedule are in `Screen_Model`, for runs
without a TUI; there a call of a writer is one step (`Nest_Model` has the single bytes and the mutexes).

Agreement of model and library where a property needs it is a hypothesis of the theorem (`agrees`, `transparent`,
`possible`, `lower_ok`, `world_ok`, ...), with a concrete instance beside it.

## Proof idea per property

| id | model | proof idea |
|----|-------|------------|
| C01, C02 | `Interpolate`, `Pattern`, `EscapePattern`, `resolveVar` as byte scanners | three-pass function = inductive one-pass relation `expands`, for NUL-free text; refuted with NUL placeholder |
| C03 | `interpolateEnv` called by `executeTask` then `executeCommand` | command/log level: corollary of C01; global/task env refuted by witness |
| C04, C05 | `ResolveVarsWithLocation` DFS over arbitrary key order | DFS invariant; inductive big-step `Val`; soundness, completeness, order independence; escaped self-reference refuted |
| C06, C07 | `Evaluate` with the two regexes as executable matchers proved equal to their declarative meaning | unique parse for non-blank, newline-free value; refuted otherwise |
| C08, C09, C10 | `validateAll` on arbitrary task maps and orders; slices with capacity for chains | DFS colour invariant; graph cycles as an inductive relation; chain aliasing refuted |
| C11 | `validateAliases`, `buildAliasMap`, `resolveTaskName` | injectivity from the `seen` map |
| C12-C18 | `parseFile`, `resolveInclude`, `prefix*` over a finite file system of parsed files | induction on unvisited files; declarative "task set of a file" relation; `P_Root`: which file the path on the command line is |
| C19-C31, C35, C60-C63 | runner: `runTask`, `executeTask`, `executeParallel*`, `preResolveDeps`, `syncState` | program logic with owners (`Run_Logic`), one invariant over all reachable states (`Run_Inv`, `Run_Proof`), measure for termination (`Run_Term`); `P_Skip`: what a run leaves out did not apply |
| C32-C34 | `firstNonNil`, `isSilent`, `isOutput`, env merging, `resolveDir` | case analysis and map lemmas, composed with the machine |
| C36-C39 | `lineBuffer`, `PrefixWriter`, `resolveCR`, `stripControlChars` (with UTF-8 decoding) | induction over the list of chunks/writes |
| C40-C42 | `pathToKey`, `handleMsg`, `colorForPath`, `dimColor` | injectivity of decimal printing and joining; history invariant; induction over depth |
| C43, C44 | picker `Update`, `search` | invariant over all event sequences; sortedness and permutation |
| C45, C46 | `saveCache` as a list of file-system operations with a crash or failure at each | invariant over prefixes of operations, with un-fsynced data lost or not |
| C47 | `FindBabfile` over an arbitrary existence predicate | induction on depth |
| C48 | `FindSimilar` | total order, permutation invariance |
| C49, C50 | completion and tree listing | sortedness, permutation invariance, trie membership |
| C51 | `main.run`, `cmd.run` | error-chain induction; case analysis; the lines logged against a relation that says what an error carries and says (`carries`, `says`) |
| C52, C53, C64 | prompts | case analysis over dialogues; witnesses for default/min/max |
| C54-C59 | `unmarshalBabfile` and helpers on arbitrary node trees | loops proved equal to a specification key by key; induction over trees |
| C65 | the schema as data, validity by recursion | inversion of validity along the schema, then the specification of C54-C57 |
| C66, C67 | the grouped and tabs displays: `View` over the state of C41 | lists of lines; every line drawn is a line kept; heights by induction |
| C68 | the picker's list | what is between the marks is the text; one cursor |
| C69, C71 | locations, relative paths, YAML messages | joining the path to the directory gives the file back; first-match scanners |
| C70 | names of items, prefixes, summary | padding; equality of prefixes up to trailing spaces |
| C72 | nested `PrefixWriter`s: goroutines with stacks of calls and mutexes | invariant `inv` with the history of every writer; induction over the tree of writers merges the histories |
| C74 | the same, where goroutines wait for others | history entries carry their goroutine; a sorted history is the sequence of its classes |
| C75 | `Error()` of all errors of files and tasks; `strconv.Quote` | formats as lists of verbs: `readable` formats give their arguments back, `apart` formats never print the same; both decided on the formats by computation |
| C76 | the decoder's errors, `validateAll`, includes | every helper's errors carry the task and index they were given; C12 and C55 lead from a task back to its node |
| C77-C79 | one command, its processes, bab's goroutines: `wstep` | invariants over all traces: who is in the command's group; what the history tells about the result; stability of blocked states |
| C73 | the same | the holder of the least mutex can go on; lexicographic measure by mutex |
| C80 | `Run_Model`, what every effect uses | ownership of maps by goroutines, kept by every step |
| C81 | `Run_Model`, dry and real | two executions compared through the run invariant: what one needs, the other has settled |
| C82-C84 | the writers of `Args`, `tui_block`, the summary | a logic of programs whose events tell the items above them |
| C85 | `Run_Model` under any map order | lockstep simulation of two programs by answers |
| C86 | `Run_Model` under any schedule | as C81; induction on the scope by which a task is entered, using that a block begins after the dependencies of its tasks |
| C29 (blocks) | `Run_Model` under any schedule | a judgement `ok` on programs that tracks which tasks a goroutine may enter (`Run_Apart`); goroutines of one block enter disjoint sets, so a running task met is an ancestor |
| C87 | `Run_Model` under any schedule | every kind of failure (`err_ok`) of one run is contradicted by what the other, successful one did at the same place; induction on the history, since a cancellation follows a failure; with C29 for independent items |
| C88 | the decoder, `parse` and `Run_Model` together | the cause of a failure (C62) against what the decoder and the validation guarantee (C08, C09, C56) and C29 |
| C89 | `Run_Model`, two runs of it | erasure of display from Babfiles and from histories (`Look_Spec`); a weak simulation between the programs (`Sim_Proof`, `Look_Proof`) |
| C90 | `Run_Model`, two runs of it | references of texts by `Interp_Spec`; the simulation of C89 with maps that agree apart from secrets (`Secret_Spec`, `Secret_Proof`) |
| C91 | `Run_Model` with two sets of tasks, `Include_Model` with two trees | reachability (`Valid_Spec.edge`); the callers named in the claims of a run are distinct, so the recursion bound never matters (`Local_Spec`, `Local_Proof`) |
| C92 | `Include_Model` and `Run_Model` for the same file, run directly and included | events up to prefixed names of tasks, variables handled inside bab left out (`Mod_Spec`); a simulation in which each side knows facts about its own history (`Mod_Sim`, `Mod_Proof`), values of merged variables (`Mod_Vars`) |
| C93 | `Run_Model`: the line each error carries | where texts are written and which are filled in twice (`Where_Spec`); the causes of failure of C62, errors of `vars` for any bytes (`Vars_Errors`) |
| C94 | `Run_Model` and `load`, two runs with other values of variables or another environment | the simulation of C90, now between two configurations (`changed`) and with names only one side has (`agree V U`); values of the file's vars by `Val` of `Interp_Spec` (`Value_Spec`) |
| C95 | `Run_Model`, two task maps that differ in implied dependencies | a simulation between programs that know which tasks are done (`Know_Sim`); that a finished task's deps are done is the invariant of `Run_Inv` (`brings`, `widened` in `Implied_Spec`) |
| C96 | `Run_Model`, all programs of the runner | every goroutine is a program that is either between commands or waits for one (`disc`, `st` in `Alone_Proof`), and two that wait part at one `Fork`; `place`, `divided` in `Alone_Spec` are about how tasks were reached |
| C97 | `Screen_Model` on top of `Run_Model`, `Out_Model` | by C96 a writer with an unfinished line belongs to one command that is running or whose item is ending (`quiet_around`, `quiet_running`), so lines pass through all writers around (`put_effect`); the log of lines is built along the run (`sinv` in `Screen_Main`) |
| C98 | `Prompt_Model` | cases on the prompt's type; submitting a form unchanged (`untouched`) is specified apart from the model, and the answer without a terminal is that of C52 |
| C99 | `Run_Model` | a simulation (`Limit_Proof`): the program with the higher limits makes each step of the other, with the same event up to the ghost that records the options of the block (`bare`); outcomes and actions then follow from C86 and C87 for the Babfile whose limits hold nothing up |
| C100 | `Doc_Model` | through `unmarshal_node_spec` (the code accepts exactly what `means`): each part of the meaning reads a mapping through the one entry of a key (`alike`), which reordering keeps; assumes of the library that `Decode` is blind to the order (`order_blind`, met by the stand-in of the examples) |
| C101 | `Doc_Model` | through `unmarshal_node_spec` in both directions; `same_document` (`Unknown_Spec`) says when two trees are the same but for keys that are in none of the four key lists, which are written out there; a block is the one mapping that is strict |
| C102 | `Color_Model` on `Run_Model` and `Screen_Model` | which writers remove escape sequences is `strip_in`, read off the run; `off_reached`: below a block with `color: false` the flag stays set; `C33` for the variables, `C97` for the lines; what removing means is `a_strip`, a contract on the library |

## Testing the theorems

`seeded/LOG.jsonl` records wrong programs tried on the model (`tools/mutate.py` edits a copy, rebuilds it and lists the
theorems that no longer check) and which theorems were tightened because a wrong program had survived.

## Findings

F1 `${{ x }} == 'prod'` with x blank (or containing a newline) is treated as truthy text and runs.
F2 The documentation says undefined variables in `when` are falsy; they are an error.
F3 An escaped `$${{ a }}` inside `vars` counts as a reference: spurious cycle errors.
F4 Global and task env values are interpolated twice.
F5 The text `\0ESCAPED_BRACE\0` in input becomes `${{`.
F6 A task without `vars` shares the global variable map, so prompt answers leak into other tasks.
F7 `platforms`/`when` on children of a parallel block are ignored.
F8 `silent`/`output` of a parallel block are dropped when its file is included.
F9 The root file's `dir` is applied to included tasks.
F10 A task's `when` sees only global variables.
F11 Two parallel branches needing the same running task yield a spurious circular-dependency error.
F12 Items waiting for a parallel slot vanish without error on cancellation.
F13 Lines ending in CRLF lose their text.
F14 Reported cycle chains may be overwritten through slice aliasing.
F15 YAML aliases yield the anchor's name as the value.
F16 Non-interactive defaults are not checked against min/max/validate; a prompt for a number takes the empty text.
F17 Dry run does not ask prompts, so later items that use the answer fail.
F18 Cancellation exits with status 0.
F19 A fuzzy score above 1000 ranks a fuzzy match before an exact one.
F20 The search for cycles through run items returns early and can miss the cycle it looks for from another start.
F21 The chain of an include cycle is sorted, not in the order of the includes.
F22 An empty alias of an included task becomes `ns:`.
F23 Dependencies resolved before a parallel block inherit the block's silent/output.
F24 Environment keys with `=` are passed on.
F25 A failing dependency of one parallel item keeps all items from running.
F26 `stripControlChars` rewrites invalid UTF-8.
F27 A key that arrives after the one that ends the picker still counts.
F28 An empty candidate scores 80 in the picker.
F29 A `$PWD` with dots in it is taken as it is.
F30 On Windows `saveCache` removes the old record before it renames the new one.
F31 Repeated keys are accepted, the last one wins.
F32 `when:` and other texts given as a list become empty; `cmd: ~` runs `~`; merge keys are ignored.
F33 Answers of a multiselect are joined with commas and are ambiguous when options contain them.
F34 A parallel block with a bad key hides errors of its children; of a repeated task the body is not looked at; only the
first invalid platform is reported; `min: ~` is 0; the message about modes leaves out `tabs`.
F35 The schema is narrower than the parser (an include of `lib/Babfile`, `default: 5` of a number prompt, unknown keys)
and cannot see contradictory prompts; with aliases it accepts what the parser refuses.
F36 An alias is highlighted at its first occurrence, which may lie inside an earlier alias.
F37 The grouped and tabs displays vanish when all is done.
F38 The content of a tab is not refreshed after Ctrl-C.
F39 An item without label is called by the start of its command before interpolation; a newline in it breaks the prefix
into two lines, and commands with the same first twenty characters have the same name.
F40 A finished item without output still shows "Running".
F41 A long label pushes the status mark out of the title.
F42 A file named `..foo` below the working directory is printed with its absolute path.
F43 A `desc` of several lines breaks the lines of the picker.
F44 The message of a YAML error loses every "line N:", also in the user's text; `a:3:5` may be two places.
F45 Output without a final newline before an inner block merges with the first line of the block.
F46 An error with a cause does not print its own message, so the task and key are not named.
F47 Errors about tasks of included files (missing tasks, aliases, variables) name the root file with a line of the
included file.
F48 An error in item 1 of a parallel block is printed as `run[1]` of the task.
F49 The chain of a cycle is ambiguous when a task is called `a → a`.
F50 A command in a parallel block or with `output: false` is waited for until every background process it left has
closed its output; while bab waits so, Ctrl-C has no effect (the goroutine that kills is already gone).
F51 Commands run in a process group of their own that is not in the foreground: one that reads from the terminal is
stopped (SIGTTIN) and bab waits for ever.
F52 Cancelling sends SIGKILL to the group only: processes in other groups or of other users survive; a second Ctrl-C can
end bab before it has killed; a late kill may hit a stranger that got the same number.
F53 A command that ended with status 0 just before Ctrl-C can be reported as cancelled.
F54 In a parallel block, a task without `vars` that prompts stores the answer in the map of global variables while other
  items read or write it: Go ends the program with "concurrent map writes" or "concurrent map read and map write".
F55 `--dry-run` does not ask, so the variable of a prompt stays unset: a later item that uses it makes the dry run fail with an
undefined variable although the run would succeed (C81_refuted). It does not follow task references either: what a called task
does is listed only where a dependency names the same task, possibly after things that are done later (C81_order_refuted).
Directories are checked in the dry run, so one that an earlier command would create makes it fail too (runner.go 448-465).
F56 A log item inside a parallel block is written to standard output, any other log item to standard error (parallel.go 318-319
against the logger); and one of level `debug` is shown without `--verbose` in a block, and only there (C84).
F57 Which of several undefined variables in an `env` an error names changes from run to run, and so does the value a command
sees of a variable when a key contains `=` (`A` and `A=x` both set `A`): Go's map order shows (C85).
F58 With references in parallel blocks the schedule shows: the same run succeeds or fails with "circular dependency" (C29), the
output of a task that two items name is shown or hidden by the settings of the item that came first, and a task sees the answer
another task was given or the old global value (C86).
F59 A command of blanks (`cmd: " "`) is accepted by the parser, which asks for a non-empty value, and fails when it is run, where
the value is trimmed first (runner.go 296; C88).

F60 `output: false` outside a block also disconnects the command from standard input (runner.go 467-485): a command that reads
from the terminal stops working when its output is hidden (C89_stdin_refuted).

F61 The env of a task is interpolated when the task starts and, merged into that of a command, once more for the command (runner.go
216 and 306): a value that looks like `${{ x }}`, such as an answer to a question, is expanded as a reference, so that it can
show the value of any other variable, or make the command fail (C90_expanded_twice_refuted).
F62 An answer to a `password` question is echoed with the command that uses it and quoted in its error (C90_password_shown_refuted),
and with `--verbose` every answer is logged in clear (runner.go 259, a debug line, which the model leaves out).

F63 An included file is not quite a module (include.go 34-52, runner.go 158-185). When included, the `when` of a task is evaluated
without the variables of its file and fails for them (C92_when_refuted); the answer to a question of a task without `vars` is no longer
seen by other tasks (C92_asks_refuted); a task variable that redefines a variable of the file changes the other variables of the
file made from it (C92_redefined_refuted), and may give a cycle that is not there (C92_escaped_refuted); `silent` and `output`
of a parallel block are lost (C92_blocks_refuted); and the root's `dir`, a relative path, is taken from the directory of the included file
(C92_settings_refuted).

F64 Because of F61 an error may be about a variable that nothing in the Babfile refers to: a global variable `$${{ pw }}`, escaped, used
in a task's `env`, makes every command of that task fail with `undefined variable: pw` (C93_twice_refuted); so a variable no text refers to cannot always be left out (C94_twice_refuted).
F65 Errors of variables name the root Babfile with the line of the included one (runner.go 159, 209, 214, 244, 300, 351 and parallel.go
313 pass `r.BabfilePath`, although every task knows its `SourcePath`): the line may not exist in the file named (C93_included_refuted).
An undefined variable in the global `vars` is reported without a line (runner.go 72 passes 0).
