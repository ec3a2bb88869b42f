{
 "claims": [
  {
   "property": "C01",
   "status": "proved",
   "theorems": [
    "C01_interpolate_is_one_pass",
    "C01_reading_is_total_and_unambiguous",
    "C01_plain_text_unchanged",
    "C01_nul_placeholder_refuted"
   ],
   "note": "For NUL-free text; the NUL placeholder counterexample is C01_nul_placeholder_refuted."
  },
  {
   "property": "C02",
   "status": "proved",
   "theorems": [
    "C02_error_is_leftmost_undefined",
    "C02_references_found",
    "C02_has_reference"
   ],
   "note": ""
  },
  {
   "property": "C03",
   "status": "partial",
   "theorems": [
    "C03_command",
    "C03_log",
    "C03_prompt",
    "C03_dir",
    "C03_command_env",
    "C03_outer_env_partial",
    "C03_task_env_refuted",
    "C03_global_env_refuted"
   ],
   "note": "Proved for every text w: written with $ before every ${{ it reaches a command, a log, a prompt, a directory and a command's env value as w. Refuted for task-level and global env values (witness runs): they are interpolated a second time for every command; escaping twice works (C03_outer_env_partial)."
  },
  {
   "property": "C04",
   "status": "proved",
   "theorems": [
    "C04_resolve_exact",
    "C04_resolved_values_are_fixed_point",
    "C04_order_independent",
    "C04_outer_variables"
   ],
   "note": ""
  },
  {
   "property": "C05",
   "status": "partial",
   "theorems": [
    "C05_errors_are_genuine",
    "C05_fails_iff_cycle_or_undefined",
    "C05_escaped_reference_refuted"
   ],
   "note": "Exact failure condition and termination proved; the clause 'escaped references do not count' is false of the code, see C05_escaped_reference_refuted."
  },
  {
   "property": "C06",
   "status": "partial",
   "theorems": [
    "C06_comparison",
    "C06_variable_equals_literal",
    "C06_variable_with_surrounding_newlines",
    "C06_blank_value_refuted",
    "C06_newline_value_refuted"
   ],
   "note": "Proved for every value that is neither blank nor multi-line; for blank or multi-line values the code always runs the item (C06_blank_value_refuted, C06_newline_value_refuted)."
  },
  {
   "property": "C07",
   "status": "proved",
   "theorems": [
    "C07_trimming_is_well_defined",
    "C07_truthiness",
    "C07_empty_condition_runs",
    "C07_undefined_is_error"
   ],
   "note": ""
  },
  {
   "property": "C08",
   "status": "proved",
   "theorems": [
    "C08_parse_leaves_no_dangling_reference",
    "C08_every_dangling_reference_reported",
    "C08_accepted_iff_well_formed",
    "C08_no_dangling_reference"
   ],
   "note": ""
  },
  {
   "property": "C09",
   "status": "proved",
   "theorems": [
    "C09_cycle_error_iff_cyclic",
    "C09_verdict_order_independent"
   ],
   "note": ""
  },
  {
   "property": "C10",
   "status": "partial",
   "theorems": [
    "C10_chain_when_added_partial",
    "C10_reported_chain_partial",
    "C10_stale_stack_refuted",
    "C10_overwritten_chain_refuted"
   ],
   "note": "Chains are genuine when added and for tight lengths; false in general: C10_stale_stack_refuted, C10_overwritten_chain_refuted."
  },
  {
   "property": "C11",
   "status": "proved",
   "theorems": [
    "C11_parse_aliases",
    "C11_alias_runs_its_task",
    "C11_other_names_unchanged",
    "C11_ambiguous_rejected"
   ],
   "note": "Also for the alias map returned by Parse (C11_parse_aliases)."
  },
  {
   "property": "C12",
   "status": "proved",
   "theorems": [
    "C12_tasks_are_exactly_the_tree",
    "C12_own_and_included",
    "C12_absolute_path",
    "C12_relative_path"
   ],
   "note": ""
  },
  {
   "property": "C13",
   "status": "proved",
   "theorems": [
    "C13_succeeds_iff",
    "C13_terminates",
    "C13_include_cycle_rejected"
   ],
   "note": "C13_terminates: the fuel of the model never runs out, for every file system and path."
  },
  {
   "property": "C14",
   "status": "proved",
   "theorems": [
    "C14_references_are_namespaced",
    "C14_included_file_stays_closed"
   ],
   "note": ""
  },
  {
   "property": "C15",
   "status": "proved",
   "theorems": [
    "C15_settings_inherited",
    "C15_nearest_file_first"
   ],
   "note": ""
  },
  {
   "property": "C16",
   "status": "partial",
   "theorems": [
    "C16_items_preserved_partial",
    "C16_block_settings_lost_refuted"
   ],
   "note": "Holds unless a parallel block sets silent or output itself; these are dropped by the code (C16_block_settings_lost_refuted)."
  },
  {
   "property": "C17",
   "status": "partial",
   "theorems": [
    "C17_directory",
    "C17_default_partial",
    "C17_refuted"
   ],
   "note": "Refuted as stated: a dir in the file the run was started with also applies to included tasks (C17_refuted). Proved: the exact rule for every command (C17_directory), and the claim when that file has no dir (C17_default_partial)."
  },
  {
   "property": "C18",
   "status": "proved",
   "theorems": [
    "C18_order_independent",
    "C18_failure_order_independent"
   ],
   "note": ""
  },
  {
   "property": "C19",
   "status": "proved",
   "theorems": [
    "C19_claimed_once",
    "C19_every_action_once",
    "C19_actions_are_of_claimed_tasks"
   ],
   "note": "For every task map keyed by task names (what the parser builds), every schedule, answer and cancellation. Model: Run_Model.v (runner.go, parallel.go)."
  },
  {
   "property": "C20",
   "status": "proved",
   "theorems": [
    "C20_dependencies_first",
    "C20_block_dependencies_first"
   ],
   "note": "For every task map keyed by task names (what the parser builds), every schedule, answer and cancellation. Model: Run_Model.v (runner.go, parallel.go)."
  },
  {
   "property": "C21",
   "status": "proved",
   "theorems": [
    "C21_earlier_items_through",
    "C21_in_order",
    "C21_nothing_after_failure"
   ],
   "note": "For every task map keyed by task names (what the parser builds), every schedule, answer and cancellation. Model: Run_Model.v (runner.go, parallel.go)."
  },
  {
   "property": "C22",
   "status": "partial",
   "theorems": [
    "C22_success_ran_everything_partial",
    "C22_refuted",
    "C22_item_left_out",
    "C22_task_left_out",
    "C22_all_that_applied_partial"
   ],
   "note": "C22_all_that_applied_partial assumes that the run was not cancelled. It says what may be left out: a task whose condition was false, an item that is not for this system or whose condition was false when it was its turn (C22_item_left_out and C22_task_left_out, for every run). Without the assumption it is false: C22_refuted shows a block item waiting for a slot that is dropped by a cancellation while the run still returns nil."
  },
  {
   "property": "C23",
   "status": "proved",
   "theorems": [
    "C23_failure_fails_the_run",
    "C23_other_failures"
   ],
   "note": "For every task map keyed by task names (what the parser builds), every schedule, answer and cancellation. Model: Run_Model.v (runner.go, parallel.go)."
  },
  {
   "property": "C24",
   "status": "proved",
   "theorems": [
    "C24_no_command_after_cancellation",
    "C24_no_new_item_after_cancellation",
    "C24_nothing_after_seen"
   ],
   "note": "For every task map keyed by task names (what the parser builds), every schedule, answer and cancellation. Model: Run_Model.v (runner.go, parallel.go)."
  },
  {
   "property": "C25",
   "status": "proved",
   "theorems": [
    "C25_limit",
    "C25_commands_only_while_running",
    "C25_no_limit"
   ],
   "note": "For every task map keyed by task names (what the parser builds), every schedule, answer and cancellation. Model: Run_Model.v (runner.go, parallel.go)."
  },
  {
   "property": "C26",
   "status": "proved",
   "theorems": [
    "C26_block_result",
    "C26_every_item_and_first_failure"
   ],
   "note": "For every task map keyed by task names (what the parser builds), every schedule, answer and cancellation. Model: Run_Model.v (runner.go, parallel.go)."
  },
  {
   "property": "C27",
   "status": "proved",
   "theorems": [
    "C27_never_stuck",
    "C27_can_finish",
    "C27_terminates",
    "C27_bound_never_met"
   ],
   "note": "For every task map keyed by task names (what the parser builds), every schedule, answer and cancellation. Model: Run_Model.v (runner.go, parallel.go)."
  },
  {
   "property": "C28",
   "status": "proved",
   "theorems": [
    "C28_dry_run"
   ],
   "note": "For every task map keyed by task names (what the parser builds), every schedule, answer and cancellation. Model: Run_Model.v (runner.go, parallel.go)."
  },
  {
   "property": "C29",
   "status": "partial",
   "theorems": [
    "C29_independent_items_partial",
    "C29_independent_items_never_meet_partial",
    "C29_circular_means_cyclic_partial",
    "C29_refuted"
   ],
   "note": "C29_independent_items_partial and C29_independent_items_never_meet_partial: for any nesting of blocks, references and dependencies, if no two items of a block lead to one task. Items may need the same tasks as dependencies: those are complete before the block begins. C29_circular_means_cyclic_partial is the special case of blocks without task references. Without the condition the claim is false: C29_refuted shows an acyclic Babfile whose run reports a circular dependency when two branches lead to the same task."
  },
  {
   "property": "C30",
   "status": "partial",
   "theorems": [
    "C30_excluded_items_never_run_partial",
    "C30_excluded_reference_not_followed_partial",
    "C30_skipped_task_does_nothing",
    "C30_dependency_only_when_chosen",
    "C30_task_condition_held",
    "C30_refuted",
    "C30_of_every_kind_partial"
   ],
   "note": "Holds for items of a task's run list, for whole tasks and for the dependencies of a task whose own condition is false. Items written inside a parallel block ignore platforms and when: C30_refuted."
  },
  {
   "property": "C31",
   "status": "partial",
   "theorems": [
    "C31_later_items_see_the_answer_partial",
    "C31_other_answers_do_not_matter_partial",
    "C31_other_answers_do_not_matter_for_logs_partial",
    "C31_refuted"
   ],
   "note": "Proved when every task that prompts has a vars map: the command, its directory and logs of a task depend only on the task's own earlier answers (two-run theorem over all roots, schedules and answers), and later items of the task see the answer. Refuted without that hypothesis: a task without vars shares the global map, so its answer changes the commands of other tasks (C31_refuted)."
  },
  {
   "property": "C32",
   "status": "proved",
   "theorems": [
    "C32_precedence",
    "C32_header_not_silent"
   ],
   "note": "For every started command of every run: the first set value of command, enclosing references/blocks (up to the dependency that starts afresh), task, global decides output and silent; the echo appears exactly when not silent; task headers only when not silent."
  },
  {
   "property": "C33",
   "status": "partial",
   "theorems": [
    "C33_environment_precedence_partial",
    "C33_plain_values_partial",
    "C33_refuted"
   ],
   "note": "Proved for keys without '=': command, then task, then global value, then bab's colour hints, then the inherited one; task and global values are interpolated twice (see C03), values without templates arrive unchanged. Refuted for keys containing '=' (C33_refuted): such a key replaces another variable. Environment names on Windows (case-insensitive) are not modelled."
  },
  {
   "property": "C34",
   "status": "proved",
   "theorems": [
    "C34_working_directory",
    "C34_bad_directory_runs_nothing"
   ],
   "note": "First non-empty of command, task, global dir, resolved from the directory of the defining file (given by an absolute path), stat'ed before the start; a failing stat means the item never starts a command and the run fails."
  },
  {
   "property": "C35",
   "status": "proved",
   "theorems": [
    "C35_known_name_never_unknown",
    "C35_unknown_name_runs_nothing"
   ],
   "note": "For every file tree, name, schedule and outcome: a task name or alias never leads to an unknown task; any other name claims itself, does nothing and fails with task-not-found."
  },
  {
   "property": "C36",
   "status": "proved",
   "theorems": [
    "C36_chunking_does_not_matter",
    "C36_lines_determined",
    "C36_nothing_lost",
    "C36_lines_are_emitted_at_once"
   ],
   "note": "For every list of chunks and a flush the emitted raw lines are the lines of the whole stream (a specification by cutting at newlines), complete lines are emitted at once, nothing is lost. A failing destination is not modelled."
  },
  {
   "property": "C37",
   "status": "proved",
   "theorems": [
    "C37_whole_lines",
    "C37_all_lines",
    "C37_no_newline_inside"
   ],
   "note": "Small-step model with the block's mutex, bytes reaching the destination one by one, any schedule, any number of writers and destinations. Writers nested in a writer of an outer block are not composed."
  },
  {
   "property": "C38",
   "status": "proved",
   "theorems": [
    "C38_no_control",
    "C38_no_escape",
    "C38_text",
    "C38_unchanged",
    "C38_sequences_dropped",
    "C38_styles_kept"
   ],
   "note": "For every line; the escape-sequence library is an arbitrary function. C38_sequences_dropped and C38_styles_kept say, under what the library promises, that an escape sequence leaves nothing in the line unless it sets a style, which stays as it is. C38_stray_bytes records that invalid UTF-8 is rewritten only when the line also has a control character."
  },
  {
   "property": "C39",
   "status": "partial",
   "theorems": [
    "C39_crlf_loses_the_line",
    "C39_refuted",
    "C39_after_last_return_partial"
   ],
   "note": "False of the code: a carriage return before the newline removes the whole line (C39_crlf_loses_the_line, C39_refuted). What is emitted is the text after the last carriage return (C39_after_last_return_partial)."
  },
  {
   "property": "C40",
   "status": "proved",
   "theorems": [
    "C40_distinct_keys",
    "C40_same_keys",
    "C40_child_keys"
   ],
   "note": "Keys are injective in the path, and the display's own numbering agrees with them."
  },
  {
   "property": "C41",
   "status": "proved",
   "theorems": [
    "C41_latest_lines",
    "C41_status",
    "C41_which_items",
    "C41_only_its_own",
    "C41_nothing_is_missed",
    "C41_orderly",
    "C41_at_the_end"
   ],
   "note": "Lines and status for any message sequence; which items there are and that others are unchanged for orderly ones; and the messages blocks send, however goroutines are mixed, are orderly, never miss their item and leave each item with the lines of its own goroutine."
  },
  {
   "property": "C42",
   "status": "proved",
   "theorems": [
    "C42_palette",
    "C42_never_brighter"
   ],
   "note": "Every path; the palette is described by its three channels."
  },
  {
   "property": "C43",
   "status": "partial",
   "theorems": [
    "C43_cursor_is_drawn",
    "C43_window",
    "C43_matches_belong_to_the_text",
    "C43_cancel_selects_nothing_partial",
    "C43_enter_selects_the_task_under_the_cursor_partial",
    "C43_stays_open",
    "C43_refuted"
   ],
   "note": "The cursor is always on a drawn row and inside the window, the matches always belong to the text typed, Esc/Ctrl-C select nothing and Enter selects the task under the cursor, for every sequence of keys and sizes. Missing: a key that the library still delivers after the ending key and before it quits also acts, so the claim about the final selection fails then (C43_refuted); the two _partial theorems assume no such key."
  },
  {
   "property": "C44",
   "status": "proved",
   "theorems": [
    "C44_sound",
    "C44_complete",
    "C44_by_name_or_alias",
    "C44_each_once",
    "C44_ordered",
    "C44_determined",
    "C44_all_by_name",
    "C44_map_order"
   ],
   "note": "The fuzzy-matching library is a parameter; what is assumed of it is the hypothesis 'matcher' of the theorems (it returns the indexes of matching texts once each with scores), met by a concrete matcher in the Examples. Sorting, de-duplication of a task matched by name and by alias, and the order for an empty search are the code's own and proved for every task map and iteration order."
  },
  {
   "property": "C45",
   "status": "partial",
   "theorems": [
    "C45_whole",
    "C45_old_or_new",
    "C45_load",
    "C45_reader",
    "C45_saved",
    "C45_temp_files",
    "C45_refuted"
   ],
   "note": "Every interleaving of any number of savers, every failing call, kills at any point and power loss (unsynced content arbitrary, directory at any earlier state of the cache's name) are covered. Proved in full off Windows (C45_old_or_new). On Windows saveCache removes the cache before renaming, so the record can be lost in between: there the content is old, new or absent (C45_whole), and 'old or new' is false (C45_refuted). Assumed: os.CreateTemp does not give out a random name a second time; rename is atomic; JSON reads back the records written (hypothesis of C45_load)."
  },
  {
   "property": "C46",
   "status": "proved",
   "theorems": [
    "C46_notice",
    "C46_strict",
    "C46_fetch",
    "C46_once_a_day",
    "C46_who_asks",
    "C46_recorded",
    "C46_asks_with_record",
    "C46_up_to_date",
    "C46_forced"
   ],
   "note": "For every file content, clock readings, environment and reply. Reading and comparing versions (hashicorp/go-version) and JSON are parameters; C46_strict assumes the comparison is asymmetric. C46_once_a_day is about invocations in sequence; two at once may both fetch. C46_up_to_date assumes a server whose ETags tell its releases apart and that answers 304 only to the ETag of its current release."
  },
  {
   "property": "C47",
   "status": "proved",
   "theorems": [
    "C47_nearest",
    "C47_ends"
   ],
   "note": "For every working directory as the operating system spells it (absolute and clean) and every file system: the file found is the nearest one under the first documented name, and none is found iff there is none up to the root. os.Stat is a parameter. os.Getwd returns $PWD unchanged when it names the current directory; if that is written with dots the search visits a directory that is not above the current one (Example C47_pwd_with_dots); it still ends (C47_ends)."
  },
  {
   "property": "C48",
   "status": "proved",
   "theorems": [
    "C48_best",
    "C48_alike",
    "C48_unique",
    "C48_order"
   ],
   "note": "strings.ToLower is a parameter. An empty candidate takes part like any other (it scores 80 and is the shortest), see C48_empty_candidate."
  },
  {
   "property": "C49",
   "status": "proved",
   "theorems": [
    "C49_entries",
    "C49_sorted",
    "C49_map_order",
    "C49_nothing"
   ],
   "note": "For every loaded Babfile, typed text and iteration orders of both maps."
  },
  {
   "property": "C50",
   "status": "proved",
   "theorems": [
    "C50_lines",
    "C50_once",
    "C50_alphabetical",
    "C50_map_order",
    "C50_nonempty"
   ],
   "note": "For every task map and iteration order; styling and the drawing of branches by the tree library are not modelled, the order and nesting of the lines are."
  },
  {
   "property": "C51",
   "status": "proved",
   "theorems": [
    "C51_status",
    "C51_run",
    "C51_reported",
    "C51_lines"
   ],
   "note": "For every error tree of wrapped errors and error lists. Hypothesis own_claims_only: no Is method in the tree answers that it is context.Canceled (true of all Is methods in internal/errs). C51_run ties it to the errors of the runner model."
  },
  {
   "property": "C52",
   "status": "proved",
   "theorems": [
    "C52_declared_default",
    "C52_consequences",
    "C52_no_default_no_value"
   ],
   "note": "Full characterisation without a terminal; strings.ToLower by contract. In runs of parsed Babfiles: C52_no_default_no_value."
  },
  {
   "property": "C53",
   "status": "partial",
   "theorems": [
    "C53_terminal_answers",
    "C53_terminal_partial",
    "C53_default_partial",
    "C53_password_confirmed",
    "C53_left_form_fails",
    "C53_no_panic",
    "C53_empty_number_refuted",
    "C53_unchecked_default_refuted",
    "C53_stored_in_a_run_partial"
   ],
   "note": "At a terminal exact (C53_terminal_answers); the claim is false for the empty text at a number prompt with a default, and for defaults used without a terminal, which are not checked against min/max/validate/count (two refutations). All other answers keep the constraints, also in runs of parsed Babfiles. huh's forms by contract."
  },
  {
   "property": "C54",
   "status": "proved",
   "theorems": [
    "C54_prompts_well_formed",
    "C54_survives_interpolation"
   ],
   "note": "For everything Parse returns, with includes, every prompt at any depth is well-formed; and membership of defaults survives interpolation."
  },
  {
   "property": "C55",
   "status": "partial",
   "theorems": [
    "C55_nothing_dropped_partial",
    "C55_nothing_dropped_by_includes_partial",
    "C55_repeated_run_list_dropped_refuted",
    "C55_repeated_section_dropped_refuted",
    "C55_repeated_parallel_list_dropped_refuted"
   ],
   "note": "Proved for documents without repeated keys, also through includes. False otherwise: of two run lists, parallel lists or tasks sections the last counts and the others are dropped silently (the _refuted theorems)."
  },
  {
   "property": "C56",
   "status": "proved",
   "theorems": [
    "C56_accepted_iff_meaningful",
    "C56_items_well_formed",
    "C56_item_iff",
    "C56_one_reading"
   ],
   "note": "Decoding is proved equal to a specification on the YAML tree (accepted iff meaningful); every run item Parse returns, at any depth and through includes, is well-formed."
  },
  {
   "property": "C57",
   "status": "proved",
   "theorems": [
    "C57_duplicates_rejected"
   ],
   "note": "The error carries the line of the second key and of the first."
  },
  {
   "property": "C58",
   "status": "partial",
   "theorems": [
    "C58_fails_iff",
    "C58_all_reported_partial",
    "C58_errors_point_into_document",
    "C58_children_of_bad_block_unreported_refuted"
   ],
   "note": "A document fails iff some place in it is wrong; each such place has an error with a line inside it. Missing: children of a parallel block that has a bad entry itself, and bodies of repeated tasks, are not looked at (refuted)."
  },
  {
   "property": "C59",
   "status": "partial",
   "theorems": [
    "C59_aliases_transparent_partial",
    "C59_text_alias_is_its_name",
    "C59_alias_elsewhere_rejected",
    "C59_written_out_differs_refuted"
   ],
   "note": "Aliases for lists, numbers and includes are transparent. An alias where a text is expected stands for the name of its anchor (refuted), elsewhere it is rejected (proved)."
  },
  {
   "property": "C60",
   "status": "proved",
   "theorems": [
    "C60_one_mode",
    "C60_modes",
    "C60_error",
    "C60_only_these_execute"
   ],
   "note": "For every combination of flags and arguments, whatever loading, the picker and the run answer. Flag parsing by cobra is not modelled."
  },
  {
   "property": "C61",
   "status": "partial",
   "theorems": [
    "C61_circular_include_chain_partial",
    "C61_chain_is_not_the_include_path_refuted"
   ],
   "note": "The chain shows exactly the files of a genuine include path but in alphabetical order (C61_chain_is_not_the_include_path_refuted)."
  },
  {
   "property": "C62",
   "status": "proved",
   "theorems": [
    "C62_failure_has_a_cause"
   ],
   "note": "For every error a run can return, err_ok gives the event or the part of the tasks that caused it."
  },
  {
   "property": "C63",
   "status": "proved",
   "theorems": [
    "C63_only_what_was_asked_for",
    "C63_only_claimed"
   ],
   "note": "Every action's and every claimed task is reachable from the one asked for."
  },
  {
   "property": "C64",
   "status": "proved",
   "theorems": [
    "C64_multiselect_read_back",
    "C64_comma_refuted"
   ],
   "note": "Proved when no option is empty or has a comma, as the claim says; with a comma ambiguity is shown by C64_comma_refuted."
  },
  {
   "property": "C65",
   "status": "proved",
   "theorems": [
    "C65_schema_valid_decoded",
    "C65_schema_valid_no_prompt",
    "C65_prompt_refuted",
    "C65_alias_refuted",
    "C65_converse_refuted",
    "C65_same_levels",
    "C65_same_modes",
    "C65_same_platforms",
    "C65_same_types",
    "C65_names"
   ],
   "note": "The exact condition is proved; the two side remarks are C65_alias_refuted and C65_converse_refuted. C65_same_levels, C65_same_modes, C65_same_platforms, C65_same_types and C65_names state, with the words and the grammar of names written out, that the schema and bab list the same words for log levels, parallel modes, platforms and prompt types and accept the same task names. The schema and draft-7 validity are modelled for the keywords the file uses."
  },
  {
   "property": "C66",
   "status": "partial",
   "theorems": [
    "C66_which_tab",
    "C66_an_item_in_front",
    "C66_content_is_current",
    "C66_all_the_output",
    "C66_one_line_per_child",
    "C66_stale_refuted",
    "C66_running_refuted"
   ],
   "note": "Proved: which tab is in front, that its item exists, that the text is current without Ctrl-C, and what it consists of. Refuted: currency after Ctrl-C, and the word Running for an item that is over."
  },
  {
   "property": "C67",
   "status": "proved",
   "theorems": [
    "C67_every_item_once",
    "C67_order",
    "C67_fits",
    "C67_lines",
    "C67_height",
    "C67_mark",
    "C67_short",
    "C67_nothing_at_the_end",
    "C67_mark_cut_refuted"
   ],
   "note": "For orderly messages, which is what blocks send (C41_orderly). That the mark is cut off when the title does not fit is C67_mark_cut_refuted."
  },
  {
   "property": "C68",
   "status": "proved",
   "theorems": [
    "C68_name",
    "C68_name_kept",
    "C68_name_refuted",
    "C68_aliases_kept",
    "C68_alias_marked",
    "C68_right_alias",
    "C68_alias_refuted",
    "C68_alias_of_the_task",
    "C68_line",
    "C68_one_cursor",
    "C68_nothing_found",
    "C68_after_the_end"
   ],
   "note": "C68_alias_refuted: an alias that also occurs inside an earlier alias is marked there (strings.Index over the joined text), which the statement excepts. C68_name_refuted: bytes of a name that are not UTF-8 are replaced when the name is marked; the statement is about UTF-8 names. The colours themselves are not modelled."
  },
  {
   "property": "C69",
   "status": "proved",
   "theorems": [
    "C69_same_file",
    "C69_short",
    "C69_here",
    "C69_elsewhere",
    "C69_dots_refuted",
    "C69_read_back",
    "C69_read_back_refuted"
   ],
   "note": "filepath.Rel is modelled on Unix for an absolute working directory, on the elements of the cleaned paths. C69_dots_refuted: a file ..name in the current directory is printed with its absolute path. C69_read_back_refuted: place 3:5 of a and line 5 of a file named a:3 print alike."
  },
  {
   "property": "C70",
   "status": "proved",
   "theorems": [
    "C70_label",
    "C70_aligned",
    "C70_line_tells_item",
    "C70_same_name_refuted",
    "C70_one_line_refuted",
    "C70_one_line",
    "C70_summary",
    "C70_summary_names"
   ],
   "note": "Colours are left out (what Style.Render adds). C70_same_name_refuted: two commands that agree in the first twenty characters have the same name. C70_one_line_refuted: a command of several lines without label has a name, and so a prefix, of several lines."
  },
  {
   "property": "C71",
   "status": "proved",
   "theorems": [
    "C71_line",
    "C71_line_found",
    "C71_forms",
    "C71_text_refuted"
   ],
   "note": "The regular expression is modelled by hand (leftmost match, greedy digits). C71_text_refuted: words of the document quoted in the message that look like a line number are deleted from it."
  },
  {
   "property": "C72",
   "status": "proved",
   "theorems": [
    "C72_nested",
    "C72_whole_lines",
    "C72_one_form",
    "C72_last_line_refuted"
   ],
   "note": "C72_nested: what every writer gets, for any calls. C72_whole_lines: for commands that are innermost. Where a command without a final newline comes before an inner block of the same item, C72_last_line_refuted shows that two lines become one (F45). Assumes that ansi.Strip makes no newlines and that prefixes have none (F39)."
  },
  {
   "property": "C73",
   "status": "proved",
   "theorems": [
    "C73_no_deadlock",
    "C73_ends",
    "C73_all_written"
   ],
   "note": "A terminal that takes no bytes is not modelled: a step that writes a byte is always possible."
  },
  {
   "property": "C74",
   "status": "proved",
   "theorems": [
    "C74_one_after_another",
    "C74_lines_of_stages",
    "C74_no_deadlock"
   ],
   "note": "An item is described by its stages (staged): which goroutine copies each command's output, which writers each block has, and that the goroutines of a stage wait for those of the stage before."
  },
  {
   "property": "C75",
   "status": "partial",
   "theorems": [
    "C75_names_read_back",
    "C75_library_text",
    "C75_document_errors_differ",
    "C75_files_differ",
    "C75_cause_refuted",
    "C75_one_line",
    "C75_task_errors_differ",
    "C75_chain_read_back",
    "C75_suggestion",
    "C75_variable_suggestion",
    "C75_variable_cycle",
    "C75_chain_refuted"
   ],
   "note": "Proved for all errors without a cause. Errors with a cause print only the cause (C75_cause_refuted); a chain is ambiguous when a name contains the arrow (C75_chain_refuted)."
  },
  {
   "property": "C76",
   "status": "partial",
   "theorems": [
    "C76_item_place_partial",
    "C76_block_index_refuted",
    "C76_reference_place",
    "C76_alias_place",
    "C76_file_partial",
    "C76_included_file_refuted"
   ],
   "note": "The task, the line and the referring task are right for all inputs. The index of an item inside a parallel block is printed as one of the run list (C76_block_index_refuted); for tasks of included files the root file is printed (C76_included_file_refuted)."
  },
  {
   "property": "C77",
   "status": "partial",
   "theorems": [
    "C77_ends",
    "C77_returns",
    "C77_others",
    "C77_result",
    "C77_leaver_refuted",
    "C77_background_refuted",
    "C77_stranger_refuted",
    "C77_second_signal_refuted",
    "C77_finished_refuted"
   ],
   "note": "Proved for commands none of whose processes goes to another process group or user: after the kill nothing is alive and bab returns within three steps of its own (C77_ends, C77_returns), only the command's processes are hit while it is waited for (C77_others), and the result (C77_result). Refuted as stated: a process in its own group survives; while bab waits for output of background processes it does not kill at all; a second signal ends bab first; a late kill can hit a reused number; a command that ended well can be reported as cancelled. os/exec and POSIX are modelled from their documentation."
  },
  {
   "property": "C78",
   "status": "partial",
   "theorems": [
    "C78_hidden_is_shown",
    "C78_shown",
    "C78_waits",
    "C78_refuted"
   ],
   "note": "Refuted: with hidden output bab waits for background processes that have it open (C78_refuted, C78_waits); shown commands end with their first process (C78_shown). Proved: whatever can happen with hidden output can happen with shown output, with the same result (C78_hidden_is_shown)."
  },
  {
   "property": "C79",
   "status": "partial",
   "theorems": [
    "C79_background",
    "C79_stopped",
    "C79_refuted"
   ],
   "note": "Refuted: every process of the command is stopped when it reads from the terminal unless it changes groups (C79_background), and bab then waits until somebody continues or kills it (C79_stopped, C79_refuted). Nothing is left to prove of the full statement, it is false."
  },
  {
   "property": "C80",
   "status": "partial",
   "theorems": [
    "C80_no_race",
    "C80_refuted",
    "C80_reader_refuted"
   ],
   "note": "Without a condition the claim is false (C80_refuted: two tasks of a block that ask and have no vars both store in the global map; C80_reader_refuted: one that asks and one that just runs). C80_no_race: it holds for every schedule if each task that asks and can run inside of a block (also through dependencies and calls) has vars of its own."
  },
  {
   "property": "C81",
   "status": "partial",
   "theorems": [
    "C81_listed_is_run",
    "C81_run_is_listed",
    "C81_refuted",
    "C81_order_refuted"
   ],
   "note": "Both directions are proved, for tasks that were given no answer before the item, when answers did not change the global variables, and values have no NUL byte (the escape marker): every line is carried out, everything done is listed. That a dry run succeeds whenever the run does, and that the order is the same, is false: C81_refuted, C81_order_refuted."
  },
  {
   "property": "C82",
   "status": "proved",
   "theorems": [
    "C82_command_output",
    "C82_item_line",
    "C82_task_line",
    "C82_plain_iff_outside",
    "C82_key_tells_indices",
    "C82_labels_tell_items",
    "C82_labels_tell_items_refuted"
   ],
   "note": "Proved for every execution of the runner's model, nested blocks and references included. C82_labels_tell_items needs the labels of the block to differ; C82_labels_tell_items_refuted shows two commands with the same first twenty characters shown under the same label (see C70)."
  },
  {
   "property": "C83",
   "status": "proved",
   "theorems": [
    "C83_summary"
   ],
   "note": "Proved for every execution. Cancelled items count as failed, as in the code."
  },
  {
   "property": "C84",
   "status": "partial",
   "theorems": [
    "C84_stdout_partial",
    "C84_stdout_refuted",
    "C84_debug_in_blocks"
   ],
   "note": "False as stated. C84_stdout_partial: the only lines of bab on standard output are log items inside parallel blocks. C84_stdout_refuted: those are on standard output while other log items are on standard error. C84_debug_in_blocks: a debug message in a block is shown without --verbose. Missing for the full statement: only these log items."
  },
  {
   "property": "C85",
   "status": "partial",
   "theorems": [
    "C85_same_so_far",
    "C85_same_end",
    "C85_same_length",
    "C85_same_lines",
    "C85_same_environment",
    "C85_same_error_refuted",
    "C85_same_environment_refuted"
   ],
   "note": "Proved for all events of a run, lockstep over two executions: what differs is only the order of the own variables in a command's environment and which variable an error about env or vars names. C85_same_environment: the environment a command sees is then the same, if no name has = in it; C85_same_environment_refuted and C85_same_error_refuted show these two exceptions are real. Missing for the full statement: only these. Values are assumed to be free of NUL (texts_ok, answers_ok)."
  },
  {
   "property": "C86",
   "status": "partial",
   "theorems": [
    "C86_success_does_all",
    "C86_success_completes_all",
    "C86_same_things",
    "C86_outcome_refuted",
    "C86_shown_refuted",
    "C86_globals_refuted"
   ],
   "note": "Proved with blocks, references and dependencies at any depth, for any execution against any that succeeds uncancelled, if answers agree and only tasks with variables of their own ask (globals_kept). C86_same_things compares two successful runs. The full claim fails, and is refuted: whether the run succeeds (C86_outcome_refuted), whether output is shown and the colour hints in the environment (C86_shown_refuted), and what commands say when a task without variables asks (C86_globals_refuted) depend on the schedule."
  },
  {
   "property": "C87",
   "status": "proved",
   "theorems": [
    "C87_fails_only_over_running",
    "C87_independent_items_same_outcome"
   ],
   "note": "Compares two executions. same_world: results of commands, questions and directory checks agree where both runs come to them; undisturbed: contexts are cancelled only after an item failed (errgroup), not by the user, and the screen of a block opens. globals_kept as in C81/C86 (F58 shows it is needed). That failures over running tasks do happen when items are not independent: C86_outcome_refuted, C29_refuted."
  },
  {
   "property": "C88",
   "status": "proved",
   "theorems": [
    "C88_accepted_fails_for",
    "C88_checked_before_refuted"
   ],
   "note": "From the bytes of the files (decoded by any YAML library, see C54-C59) to the reason of the failure. C88_checked_before_refuted: a command of blanks is accepted and fails at run time (F59)."
  },
  {
   "property": "C89",
   "status": "proved",
   "theorems": [
    "C89_same_happenings",
    "C89_same_so_far",
    "C89_commands",
    "C89_stdin_refuted"
   ],
   "note": "For every pair that agrees up to display, in both directions (the hypothesis is symmetric), by a weak simulation; errors are compared without their line numbers, which a display setting can shift. C89_stdin_refuted: output: false takes standard input away (F60). A run where a TUI is quit or does not open is excluded (watched)."
  },
  {
   "property": "C90",
   "status": "proved",
   "theorems": [
    "C90_same_but_for_secret",
    "C90_same_so_far",
    "C90_others_untouched",
    "C90_same_error",
    "C90_password_shown_refuted",
    "C90_expanded_twice_refuted"
   ],
   "note": "A simulation between two runs of the same Babfile with other answers for the secrets, for all schedules; what counts as referring is decided by the specification of references (Interp_Spec.reads). The two refuted statements show what the hypotheses are for: a password is echoed by a command that refers to it, and an env expanded twice can carry a secret that no text refers to."
  },
  {
   "property": "C91",
   "status": "proved",
   "theorems": [
    "C91_depends_on_what_it_leads_to",
    "C91_adding_changes_nothing"
   ],
   "note": "Bisimulation of the two programs up to the recursion bound. The bound is shown irrelevant from the claims in the history: the tasks a call is nested in are distinct. The second theorem goes from files to runs, for trees of files to which tasks and includes are added."
  },
  {
   "property": "C92",
   "status": "proved",
   "theorems": [
    "C92_included_as_direct",
    "C92_when_refuted",
    "C92_asks_refuted",
    "C92_redefined_refuted",
    "C92_escaped_refuted",
    "C92_settings_refuted",
    "C92_blocks_refuted"
   ],
   "note": "Proved for all trees and executions, in both directions, under the four conditions of the statement; the _refuted theorems show a file for each condition, where everything else holds, that does something else when it is included."
  },
  {
   "property": "C93",
   "status": "partial",
   "theorems": [
    "C93_line_partial",
    "C93_line",
    "C93_twice_refuted",
    "C93_included_refuted"
   ],
   "note": "Proved with one exception, which is real: the env of a task is filled in again for each command (filled_twice; C93_twice_refuted). Without env (task and file) there is no exception (C93_line). That the file named is the one of the line is false for included tasks (C93_included_refuted, F65)."
  },
  {
   "property": "C94",
   "status": "proved",
   "theorems": [
    "C94_same_but_for_value",
    "C94_same_so_far",
    "C94_others_untouched",
    "C94_unused",
    "C94_environment",
    "C94_twice_refuted"
   ],
   "note": "Two runs of the same tasks with other values of the file's vars (or another environment of bab) are matched step by step; unused variables may be added or left out. Variables must be confined (no condition, no env of task or file refers to them). C94_twice_refuted shows why an item of a task whose env has references counts as referring."
  },
  {
   "property": "C95",
   "status": "proved",
   "theorems": [
    "C95_changes_nothing",
    "C95_same_commands",
    "C95_when_refuted",
    "C95_before_refuted"
   ],
   "note": "Both directions, so far and to the end; any number of implied dependencies in any tasks. C95_when_refuted and C95_before_refuted show that the two conditions are needed."
  },
  {
   "property": "C96",
   "status": "proved",
   "theorems": [
    "C96_overlap",
    "C96_same_item",
    "C96_inside",
    "C96_outside",
    "C96_sequential",
    "C96_bab_itself",
    "C96_question_alone",
    "C96_undisturbed"
   ],
   "note": "Every pair of overlapping commands is traced to different items of one parallel block of the tasks. A command runs from its start to its end event; what processes it leaves behind do is not part of the claim."
  },
  {
   "property": "C97",
   "status": "proved",
   "theorems": [
    "C97_finished",
    "C97_any_time",
    "C97_one_form",
    "C97_one_line",
    "C97_writers",
    "C97_own_writers",
    "C97_finished_refuted"
   ],
   "note": "For finished runs and at any moment; the condition on unfinished last lines is needed (C97_finished_refuted). C97_writers and C97_own_writers: the items of a line are those of the writers bab gives to the command or uses itself."
  },
  {
   "property": "C98",
   "status": "partial",
   "theorems": [
    "C98_presents",
    "C98_untouched_partial",
    "C98_untouched_refuted"
   ],
   "note": "C98_presents holds in full. Accepting the form unchanged gives the non-interactive answer for every type except a multiselect whose defaults are in another order than its options (or repeat): the form answers in the order of the options, a run without a terminal in the order of the defaults (C98_untouched_refuted)."
  },
  {
   "property": "C99",
   "status": "proved",
   "theorems": [
    "C99_raised",
    "C99_no_limit",
    "C99_same_outcome",
    "C99_same_things",
    "C99_lowered_refuted"
   ],
   "note": "All runs, prefixes and schedules. C99_lowered_refuted: the converse is false, a run without limit need not be a run with a lower one. The ghost of an event that records through which blocks a task was reached (with their options, hence the limit) is ignored in the comparison."
  },
  {
   "property": "C100",
   "status": "proved",
   "theorems": [
    "C100_same_babfile",
    "C100_same_project",
    "C100_repeated_key_refuted"
   ],
   "note": "Keys_Spec/Keys_Proof/P_Keys: for any YAML library whose Decode is blind to the order of keys. Lines stay with their nodes, so 'the same' includes the lines kept for messages; moving text in a real file changes lines, which only messages show. C100_repeated_key_refuted: with a repeated key the order matters."
  },
  {
   "property": "C101",
   "status": "proved",
   "theorems": [
    "C101_ignored",
    "C101_block_strict",
    "C101_mistyped_reported_refuted"
   ],
   "note": "All of it, about error-free reading of the tree (which error is reported for a rejected file is not compared). C101_mistyped_reported_refuted shows the flip side: a mistyped silent is accepted and the command is not silent."
  },
  {
   "property": "C102",
   "status": "proved",
   "theorems": [
    "C102_told",
    "C102_asked",
    "C102_told_before",
    "C102_same_text",
    "C102_plain",
    "C102_kept"
   ],
   "note": "The lines are those of runs without a TUI (C97). Removing escape sequences is the function of the library (a_strip), of which only that it adds no line breaks and leaves no escape character is assumed. Lines with a carriage return are not in C102_same_text. What commands are told is exact for all of them (C102_told_before, C102_asked); the text shown of commands in dependencies of the items of a block without colours is left open."
  }
 ]
}