{
 "C01": {
  "status": "proved",
  "note": "For NUL-free text; the NUL placeholder counterexample is C01_nul_placeholder_refuted."
 },
 "C02": {
  "status": "proved",
  "note": ""
 },
 "C03": {
  "status": "partial",
  "note": "Proved for every text w: written with $ before every ${{ it reaches a command, a log, a prompt, a directory and a command's env value as w. Refuted for task-level and global env values (witness runs): they are interpolated a second time for every command; escaping twice works (C03_outer_env_partial)."
 },
 "C04": {
  "status": "proved",
  "note": ""
 },
 "C05": {
  "status": "partial",
  "note": "Exact failure condition and termination proved; the clause 'escaped references do not count' is false of the code, see C05_escaped_reference_refuted."
 },
 "C06": {
  "status": "partial",
  "note": "Proved for every value that is neither blank nor multi-line; for blank or multi-line values the code always runs the item (C06_blank_value_refuted, C06_newline_value_refuted)."
 },
 "C07": {
  "status": "proved",
  "note": ""
 },
 "C08": {
  "status": "proved",
  "note": ""
 },
 "C09": {
  "status": "proved",
  "note": ""
 },
 "C10": {
  "status": "partial",
  "note": "Chains are genuine when added and for tight lengths; false in general: C10_stale_stack_refuted, C10_overwritten_chain_refuted."
 },
 "C100": {
  "status": "proved",
  "note": "Keys_Spec/Keys_Proof/P_Keys: for any YAML library whose Decode is blind to the order of keys. Lines stay with their nodes, so 'the same' includes the lines kept for messages; moving text in a real file changes lines, which only messages show. C100_repeated_key_refuted: with a repeated key the order matters."
 },
 "C101": {
  "status": "proved",
  "note": "All of it, about error-free reading of the tree (which error is reported for a rejected file is not compared). C101_mistyped_reported_refuted shows the flip side: a mistyped silent is accepted and the command is not silent."
 },
 "C102": {
  "status": "proved",
  "note": "The lines are those of runs without a TUI (C97). Removing escape sequences is the function of the library (a_strip), of which only that it adds no line breaks and leaves no escape character is assumed. Lines with a carriage return are not in C102_same_text. What commands are told is exact for all of them (C102_told_before, C102_asked); the text shown of commands in dependencies of the items of a block without colours is left open."
 },
 "C11": {
  "status": "proved",
  "note": "Also for the alias map returned by Parse (C11_parse_aliases)."
 },
 "C12": {
  "status": "proved",
  "note": ""
 },
 "C13": {
  "status": "proved",
  "note": "C13_terminates: the fuel of the model never runs out, for every file system and path."
 },
 "C14": {
  "status": "proved",
  "note": ""
 },
 "C15": {
  "status": "proved",
  "note": ""
 },
 "C16": {
  "status": "partial",
  "note": "Holds unless a parallel block sets silent or output itself; these are dropped by the code (C16_block_settings_lost_refuted)."
 },
 "C17": {
  "status": "partial",
  "note": "Refuted as stated: a dir in the file the run was started with also applies to included tasks (C17_refuted). Proved: the exact rule for every command (C17_directory), and the claim when that file has no dir (C17_default_partial)."
 },
 "C18": {
  "status": "proved",
  "note": ""
 },
 "C19": {
  "status": "proved",
  "note": "For every task map keyed by task names (what the parser builds), every schedule, answer and cancellation. Model: Run_Model.v (runner.go, parallel.go)."
 },
 "C20": {
  "status": "proved",
  "note": "For every task map keyed by task names (what the parser builds), every schedule, answer and cancellation. Model: Run_Model.v (runner.go, parallel.go)."
 },
 "C21": {
  "status": "proved",
  "note": "For every task map keyed by task names (what the parser builds), every schedule, answer and cancellation. Model: Run_Model.v (runner.go, parallel.go)."
 },
 "C22": {
  "status": "partial",
  "note": "C22_all_that_applied_partial assumes that the run was not cancelled. It says what may be left out: a task whose condition was false, an item that is not for this system or whose condition was false when it was its turn (C22_item_left_out and C22_task_left_out, for every run). Without the assumption it is false: C22_refuted shows a block item waiting for a slot that is dropped by a cancellation while the run still returns nil."
 },
 "C23": {
  "status": "proved",
  "note": "For every task map keyed by task names (what the parser builds), every schedule, answer and cancellation. Model: Run_Model.v (runner.go, parallel.go)."
 },
 "C24": {
  "status": "proved",
  "note": "For every task map keyed by task names (what the parser builds), every schedule, answer and cancellation. Model: Run_Model.v (runner.go, parallel.go)."
 },
 "C25": {
  "status": "proved",
  "note": "For every task map keyed by task names (what the parser builds), every schedule, answer and cancellation. Model: Run_Model.v (runner.go, parallel.go)."
 },
 "C26": {
  "status": "proved",
  "note": "For every task map keyed by task names (what the parser builds), every schedule, answer and cancellation. Model: Run_Model.v (runner.go, parallel.go)."
 },
 "C27": {
  "status": "proved",
  "note": "For every task map keyed by task names (what the parser builds), every schedule, answer and cancellation. Model: Run_Model.v (runner.go, parallel.go)."
 },
 "C28": {
  "status": "proved",
  "note": "For every task map keyed by task names (what the parser builds), every schedule, answer and cancellation. Model: Run_Model.v (runner.go, parallel.go)."
 },
 "C29": {
  "status": "partial",
  "note": "C29_independent_items_partial and C29_independent_items_never_meet_partial: for any nesting of blocks, references and dependencies, if no two items of a block lead to one task. Items may need the same tasks as dependencies: those are complete before the block begins. C29_circular_means_cyclic_partial is the special case of blocks without task references. Without the condition the claim is false: C29_refuted shows an acyclic Babfile whose run reports a circular dependency when two branches lead to the same task."
 },
 "C30": {
  "status": "partial",
  "note": "Holds for items of a task's run list, for whole tasks and for the dependencies of a task whose own condition is false. Items written inside a parallel block ignore platforms and when: C30_refuted."
 },
 "C31": {
  "status": "partial",
  "note": "Proved when every task that prompts has a vars map: the command, its directory and logs of a task depend only on the task's own earlier answers (two-run theorem over all roots, schedules and answers), and later items of the task see the answer. Refuted without that hypothesis: a task without vars shares the global map, so its answer changes the commands of other tasks (C31_refuted)."
 },
 "C32": {
  "status": "proved",
  "note": "For every started command of every run: the first set value of command, enclosing references/blocks (up to the dependency that starts afresh), task, global decides output and silent; the echo appears exactly when not silent; task headers only when not silent."
 },
 "C33": {
  "status": "partial",
  "note": "Proved for keys without '=': command, then task, then global value, then bab's colour hints, then the inherited one; task and global values are interpolated twice (see C03), values without templates arrive unchanged. Refuted for keys containing '=' (C33_refuted): such a key replaces another variable. Environment names on Windows (case-insensitive) are not modelled."
 },
 "C34": {
  "status": "proved",
  "note": "First non-empty of command, task, global dir, resolved from the directory of the defining file (given by an absolute path), stat'ed before the start; a failing stat means the item never starts a command and the run fails."
 },
 "C35": {
  "status": "proved",
  "note": "For every file tree, name, schedule and outcome: a task name or alias never leads to an unknown task; any other name claims itself, does nothing and fails with task-not-found."
 },
 "C36": {
  "status": "proved",
  "note": "For every list of chunks and a flush the emitted raw lines are the lines of the whole stream (a specification by cutting at newlines), complete lines are emitted at once, nothing is lost. A failing destination is not modelled."
 },
 "C37": {
  "status": "proved",
  "note": "Small-step model with the block's mutex, bytes reaching the destination one by one, any schedule, any number of writers and destinations. Writers nested in a writer of an outer block are not composed."
 },
 "C38": {
  "status": "proved",
  "note": "For every line; the escape-sequence library is an arbitrary function. C38_sequences_dropped and C38_styles_kept say, under what the library promises, that an escape sequence leaves nothing in the line unless it sets a style, which stays as it is. C38_stray_bytes records that invalid UTF-8 is rewritten only when the line also has a control character."
 },
 "C39": {
  "status": "partial",
  "note": "False of the code: a carriage return before the newline removes the whole line (C39_crlf_loses_the_line, C39_refuted). What is emitted is the text after the last carriage return (C39_after_last_return_partial)."
 },
 "C40": {
  "status": "proved",
  "note": "Keys are injective in the path, and the display's own numbering agrees with them."
 },
 "C41": {
  "status": "proved",
  "note": "Lines and status for any message sequence; which items there are and that others are unchanged for orderly ones; and the messages blocks send, however goroutines are mixed, are orderly, never miss their item and leave each item with the lines of its own goroutine."
 },
 "C42": {
  "status": "proved",
  "note": "Every path; the palette is described by its three channels."
 },
 "C43": {
  "status": "partial",
  "note": "The cursor is always on a drawn row and inside the window, the matches always belong to the text typed, Esc/Ctrl-C select nothing and Enter selects the task under the cursor, for every sequence of keys and sizes. Missing: a key that the library still delivers after the ending key and before it quits also acts, so the claim about the final selection fails then (C43_refuted); the two _partial theorems assume no such key."
 },
 "C44": {
  "status": "proved",
  "note": "The fuzzy-matching library is a parameter; what is assumed of it is the hypothesis 'matcher' of the theorems (it returns the indexes of matching texts once each with scores), met by a concrete matcher in the Examples. Sorting, de-duplication of a task matched by name and by alias, and the order for an empty search are the code's own and proved for every task map and iteration order."
 },
 "C45": {
  "status": "partial",
  "note": "Every interleaving of any number of savers, every failing call, kills at any point and power loss (unsynced content arbitrary, directory at any earlier state of the cache's name) are covered. Proved in full off Windows (C45_old_or_new). On Windows saveCache removes the cache before renaming, so the record can be lost in between: there the content is old, new or absent (C45_whole), and 'old or new' is false (C45_refuted). Assumed: os.CreateTemp does not give out a random name a second time; rename is atomic; JSON reads back the records written (hypothesis of C45_load)."
 },
 "C46": {
  "status": "proved",
  "note": "For every file content, clock readings, environment and reply. Reading and comparing versions (hashicorp/go-version) and JSON are parameters; C46_strict assumes the comparison is asymmetric. C46_once_a_day is about invocations in sequence; two at once may both fetch. C46_up_to_date assumes a server whose ETags tell its releases apart and that answers 304 only to the ETag of its current release."
 },
 "C47": {
  "status": "proved",
  "note": "For every working directory as the operating system spells it (absolute and clean) and every file system: the file found is the nearest one under the first documented name, and none is found iff there is none up to the root. os.Stat is a parameter. os.Getwd returns $PWD unchanged when it names the current directory; if that is written with dots the search visits a directory that is not above the current one (Example C47_pwd_with_dots); it still ends (C47_ends)."
 },
 "C48": {
  "status": "proved",
  "note": "strings.ToLower is a parameter. An empty candidate takes part like any other (it scores 80 and is the shortest), see C48_empty_candidate."
 },
 "C49": {
  "status": "proved",
  "note": "For every loaded Babfile, typed text and iteration orders of both maps."
 },
 "C50": {
  "status": "proved",
  "note": "For every task map and iteration order; styling and the drawing of branches by the tree library are not modelled, the order and nesting of the lines are."
 },
 "C51": {
  "status": "proved",
  "note": "For every error tree of wrapped errors and error lists. Hypothesis own_claims_only: no Is method in the tree answers that it is context.Canceled (true of all Is methods in internal/errs). C51_run ties it to the errors of the runner model."
 },
 "C52": {
  "status": "proved",
  "note": "Full characterisation without a terminal; strings.ToLower by contract. In runs of parsed Babfiles: C52_no_default_no_value."
 },
 "C53": {
  "status": "partial",
  "note": "At a terminal exact (C53_terminal_answers); the claim is false for the empty text at a number prompt with a default, and for defaults used without a terminal, which are not checked against min/max/validate/count (two refutations). All other answers keep the constraints, also in runs of parsed Babfiles. huh's forms by contract."
 },
 "C54": {
  "status": "proved",
  "note": "For everything Parse returns, with includes, every prompt at any depth is well-formed; and membership of defaults survives interpolation."
 },
 "C55": {
  "status": "partial",
  "note": "Proved for documents without repeated keys, also through includes. False otherwise: of two run lists, parallel lists or tasks sections the last counts and the others are dropped silently (the _refuted theorems)."
 },
 "C56": {
  "status": "proved",
  "note": "Decoding is proved equal to a specification on the YAML tree (accepted iff meaningful); every run item Parse returns, at any depth and through includes, is well-formed."
 },
 "C57": {
  "status": "proved",
  "note": "The error carries the line of the second key and of the first."
 },
 "C58": {
  "status": "partial",
  "note": "A document fails iff some place in it is wrong; each such place has an error with a line inside it. Missing: children of a parallel block that has a bad entry itself, and bodies of repeated tasks, are not looked at (refuted)."
 },
 "C59": {
  "status": "partial",
  "note": "Aliases for lists, numbers and includes are transparent. An alias where a text is expected stands for the name of its anchor (refuted), elsewhere it is rejected (proved)."
 },
 "C60": {
  "status": "proved",
  "note": "For every combination of flags and arguments, whatever loading, the picker and the run answer. Flag parsing by cobra is not modelled."
 },
 "C61": {
  "status": "partial",
  "note": "The chain shows exactly the files of a genuine include path but in alphabetical order (C61_chain_is_not_the_include_path_refuted)."
 },
 "C62": {
  "status": "proved",
  "note": "For every error a run can return, err_ok gives the event or the part of the tasks that caused it."
 },
 "C63": {
  "status": "proved",
  "note": "Every action's and every claimed task is reachable from the one asked for."
 },
 "C64": {
  "status": "proved",
  "note": "Proved when no option is empty or has a comma, as the claim says; with a comma ambiguity is shown by C64_comma_refuted."
 },
 "C65": {
  "status": "proved",
  "note": "The exact condition is proved; the two side remarks are C65_alias_refuted and C65_converse_refuted. C65_same_levels, C65_same_modes, C65_same_platforms, C65_same_types and C65_names state, with the words and the grammar of names written out, that the schema and bab list the same words for log levels, parallel modes, platforms and prompt types and accept the same task names. The schema and draft-7 validity are modelled for the keywords the file uses."
 },
 "C66": {
  "status": "partial",
  "note": "Proved: which tab is in front, that its item exists, that the text is current without Ctrl-C, and what it consists of. Refuted: currency after Ctrl-C, and the word Running for an item that is over."
 },
 "C67": {
  "status": "proved",
  "note": "For orderly messages, which is what blocks send (C41_orderly). That the mark is cut off when the title does not fit is C67_mark_cut_refuted."
 },
 "C68": {
  "status": "proved",
  "note": "C68_alias_refuted: an alias that also occurs inside an earlier alias is marked there (strings.Index over the joined text), which the statement excepts. C68_name_refuted: bytes of a name that are not UTF-8 are replaced when the name is marked; the statement is about UTF-8 names. The colours themselves are not modelled."
 },
 "C69": {
  "status": "proved",
  "note": "filepath.Rel is modelled on Unix for an absolute working directory, on the elements of the cleaned paths. C69_dots_refuted: a file ..name in the current directory is printed with its absolute path. C69_read_back_refuted: place 3:5 of a and line 5 of a file named a:3 print alike."
 },
 "C70": {
  "status": "proved",
  "note": "Colours are left out (what Style.Render adds). C70_same_name_refuted: two commands that agree in the first twenty characters have the same name. C70_one_line_refuted: a command of several lines without label has a name, and so a prefix, of several lines."
 },
 "C71": {
  "status": "proved",
  "note": "The regular expression is modelled by hand (leftmost match, greedy digits). C71_text_refuted: words of the document quoted in the message that look like a line number are deleted from it."
 },
 "C72": {
  "status": "proved",
  "note": "C72_nested: what every writer gets, for any calls. C72_whole_lines: for commands that are innermost. Where a command without a final newline comes before an inner block of the same item, C72_last_line_refuted shows that two lines become one (F45). Assumes that ansi.Strip makes no newlines and that prefixes have none (F39)."
 },
 "C73": {
  "status": "proved",
  "note": "A terminal that takes no bytes is not modelled: a step that writes a byte is always possible."
 },
 "C74": {
  "status": "proved",
  "note": "An item is described by its stages (staged): which goroutine copies each command's output, which writers each block has, and that the goroutines of a stage wait for those of the stage before."
 },
 "C75": {
  "status": "partial",
  "note": "Proved for all errors without a cause. Errors with a cause print only the cause (C75_cause_refuted); a chain is ambiguous when a name contains the arrow (C75_chain_refuted)."
 },
 "C76": {
  "status": "partial",
  "note": "The task, the line and the referring task are right for all inputs. The index of an item inside a parallel block is printed as one of the run list (C76_block_index_refuted); for tasks of included files the root file is printed (C76_included_file_refuted)."
 },
 "C77": {
  "status": "partial",
  "note": "Proved for commands none of whose processes goes to another process group or user: after the kill nothing is alive and bab returns within three steps of its own (C77_ends, C77_returns), only the command's processes are hit while it is waited for (C77_others), and the result (C77_result). Refuted as stated: a process in its own group survives; while bab waits for output of background processes it does not kill at all; a second signal ends bab first; a late kill can hit a reused number; a command that ended well can be reported as cancelled. os/exec and POSIX are modelled from their documentation."
 },
 "C78": {
  "status": "partial",
  "note": "Refuted: with hidden output bab waits for background processes that have it open (C78_refuted, C78_waits); shown commands end with their first process (C78_shown). Proved: whatever can happen with hidden output can happen with shown output, with the same result (C78_hidden_is_shown)."
 },
 "C79": {
  "status": "partial",
  "note": "Refuted: every process of the command is stopped when it reads from the terminal unless it changes groups (C79_background), and bab then waits until somebody continues or kills it (C79_stopped, C79_refuted). Nothing is left to prove of the full statement, it is false."
 },
 "C80": {
  "status": "partial",
  "note": "Without a condition the claim is false (C80_refuted: two tasks of a block that ask and have no vars both store in the global map; C80_reader_refuted: one that asks and one that just runs). C80_no_race: it holds for every schedule if each task that asks and can run inside of a block (also through dependencies and calls) has vars of its own."
 },
 "C81": {
  "status": "partial",
  "note": "Both directions are proved, for tasks that were given no answer before the item, when answers did not change the global variables, and values have no NUL byte (the escape marker): every line is carried out, everything done is listed. That a dry run succeeds whenever the run does, and that the order is the same, is false: C81_refuted, C81_order_refuted."
 },
 "C82": {
  "status": "proved",
  "note": "Proved for every execution of the runner's model, nested blocks and references included. C82_labels_tell_items needs the labels of the block to differ; C82_labels_tell_items_refuted shows two commands with the same first twenty characters shown under the same label (see C70)."
 },
 "C83": {
  "status": "proved",
  "note": "Proved for every execution. Cancelled items count as failed, as in the code."
 },
 "C84": {
  "status": "partial",
  "note": "False as stated. C84_stdout_partial: the only lines of bab on standard output are log items inside parallel blocks. C84_stdout_refuted: those are on standard output while other log items are on standard error. C84_debug_in_blocks: a debug message in a block is shown without --verbose. Missing for the full statement: only these log items."
 },
 "C85": {
  "status": "partial",
  "note": "Proved for all events of a run, lockstep over two executions: what differs is only the order of the own variables in a command's environment and which variable an error about env or vars names. C85_same_environment: the environment a command sees is then the same, if no name has = in it; C85_same_environment_refuted and C85_same_error_refuted show these two exceptions are real. Missing for the full statement: only these. Values are assumed to be free of NUL (texts_ok, answers_ok)."
 },
 "C86": {
  "status": "partial",
  "note": "Proved with blocks, references and dependencies at any depth, for any execution against any that succeeds uncancelled, if answers agree and only tasks with variables of their own ask (globals_kept). C86_same_things compares two successful runs. The full claim fails, and is refuted: whether the run succeeds (C86_outcome_refuted), whether output is shown and the colour hints in the environment (C86_shown_refuted), and what commands say when a task without variables asks (C86_globals_refuted) depend on the schedule."
 },
 "C87": {
  "status": "proved",
  "note": "Compares two executions. same_world: results of commands, questions and directory checks agree where both runs come to them; undisturbed: contexts are cancelled only after an item failed (errgroup), not by the user, and the screen of a block opens. globals_kept as in C81/C86 (F58 shows it is needed). That failures over running tasks do happen when items are not independent: C86_outcome_refuted, C29_refuted."
 },
 "C88": {
  "status": "proved",
  "note": "From the bytes of the files (decoded by any YAML library, see C54-C59) to the reason of the failure. C88_checked_before_refuted: a command of blanks is accepted and fails at run time (F59)."
 },
 "C89": {
  "status": "proved",
  "note": "For every pair that agrees up to display, in both directions (the hypothesis is symmetric), by a weak simulation; errors are compared without their line numbers, which a display setting can shift. C89_stdin_refuted: output: false takes standard input away (F60). A run where a TUI is quit or does not open is excluded (watched)."
 },
 "C90": {
  "status": "proved",
  "note": "A simulation between two runs of the same Babfile with other answers for the secrets, for all schedules; what counts as referring is decided by the specification of references (Interp_Spec.reads). The two refuted statements show what the hypotheses are for: a password is echoed by a command that refers to it, and an env expanded twice can carry a secret that no text refers to."
 },
 "C91": {
  "status": "proved",
  "note": "Bisimulation of the two programs up to the recursion bound. The bound is shown irrelevant from the claims in the history: the tasks a call is nested in are distinct. The second theorem goes from files to runs, for trees of files to which tasks and includes are added."
 },
 "C92": {
  "status": "proved",
  "note": "Proved for all trees and executions, in both directions, under the four conditions of the statement; the _refuted theorems show a file for each condition, where everything else holds, that does something else when it is included."
 },
 "C93": {
  "status": "partial",
  "note": "Proved with one exception, which is real: the env of a task is filled in again for each command (filled_twice; C93_twice_refuted). Without env (task and file) there is no exception (C93_line). That the file named is the one of the line is false for included tasks (C93_included_refuted, F65)."
 },
 "C94": {
  "status": "proved",
  "note": "Two runs of the same tasks with other values of the file's vars (or another environment of bab) are matched step by step; unused variables may be added or left out. Variables must be confined (no condition, no env of task or file refers to them). C94_twice_refuted shows why an item of a task whose env has references counts as referring."
 },
 "C95": {
  "status": "proved",
  "note": "Both directions, so far and to the end; any number of implied dependencies in any tasks. C95_when_refuted and C95_before_refuted show that the two conditions are needed."
 },
 "C96": {
  "status": "proved",
  "note": "Every pair of overlapping commands is traced to different items of one parallel block of the tasks. A command runs from its start to its end event; what processes it leaves behind do is not part of the claim."
 },
 "C97": {
  "status": "proved",
  "note": "For finished runs and at any moment; the condition on unfinished last lines is needed (C97_finished_refuted). C97_writers and C97_own_writers: the items of a line are those of the writers bab gives to the command or uses itself."
 },
 "C98": {
  "status": "partial",
  "note": "C98_presents holds in full. Accepting the form unchanged gives the non-interactive answer for every type except a multiselect whose defaults are in another order than its options (or repeat): the form answers in the order of the options, a run without a terminal in the order of the defaults (C98_untouched_refuted)."
 },
 "C99": {
  "status": "proved",
  "note": "All runs, prefixes and schedules. C99_lowered_refuted: the converse is false, a run without limit need not be a run with a lower one. The ghost of an event that records through which blocks a task was reached (with their options, hence the limit) is ignored in the comparison."
 }
}