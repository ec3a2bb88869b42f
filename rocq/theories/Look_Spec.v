(** What of a Babfile, and of the terminal, is only about display. *)
From Verif Require Import Base Types_Model Run_Model.

(** ** Babfiles up to display: [silent], [output], [mode], [color], labels, descriptions,
    aliases and the places in the file are taken out *)
Definition plain_cmd (c : cmd_run) : cmd_run := CmdRun 0 (c_cmd c) (c_dir c) (c_env c) None None (c_platforms c) (c_when c).
Definition plain_ref (r : task_run) : task_run := TaskRun 0 (r_task r) None None (r_platforms r) (r_when r).
Definition plain_log (l : log_run) : log_run := LogRun 0 (l_log l) (l_level l) (l_platforms l) (l_when l).
Definition plain_prompt (p : prompt_run) : prompt_run :=
  PromptRun 0 (p_prompt p) (p_type p) (p_message p) (p_platforms p) (p_default p) (p_defaults p) (p_options p)
    (p_placeholder p) (p_validate p) (p_min p) (p_max p) (p_confirm p) (p_when p).
Definition plain_block (o : par_opts) : par_opts := ParOpts 0 [] [] (q_limit o) None None None (q_platforms o) (q_when o).
Fixpoint plain_item (it : run_item) : run_item :=
  match it with
  | RCmd c => RCmd (plain_cmd c)
  | RTask r => RTask (plain_ref r)
  | RLog l => RLog (plain_log l)
  | RPrompt p => RPrompt (plain_prompt p)
  | RPar o items => RPar (plain_block o) (map plain_item items)
  end.
Definition plain_task (t : task) : task :=
  Task (t_name t) 0 0 (t_source t) [] [] [] (t_vars t) (t_env t) None None (t_dir t) (t_when t) (t_deps t) (map plain_item (t_run t)).
Definition plain_tasks (tasks : taskmap) : taskmap := plain_task <$> tasks.
(** Also whether standard error is a terminal. *)
Definition plain_config (k : config) : config :=
  Config (k_dry k) (k_vars k) (k_env k) None None (k_dir k) (k_getenv k) (k_environ k) (k_os k) false.

(** ** What happens, up to display *)
(** Lines of bab's own, and a TUI that starts. *)
Definition shown (ev : event) : bool :=
  match ev with
  | OHeader _ _ _ | OEcho _ _ _ _ | OSummary _ _ _ _ | ONewCtx _ _ | OTui true => true
  | _ => false
  end.
Definition colour_hint (s : str) : bool :=
  bool_decide (s ∈ [lit "TERM=dumb"; lit "NO_COLOR=1"; lit "FORCE_COLOR=1"]).
(** Errors without the line they point to. *)
Fixpoint placeless (e : rerr) : rerr :=
  match e with
  | RTaskWhen n _ e => RTaskWhen n 0 e
  | RItemWhen t i _ e => RItemWhen t i 0 e
  | RVars _ e => RVars 0 e
  | REnv _ e => REnv 0 e
  | RInterp _ e => RInterp 0 e
  | RDirInterp t _ e => RDirInterp t 0 e
  | RDep d e => RDep d (placeless e)
  | RPreDep d e => RPreDep d (placeless e)
  | RItem j e => RItem j (placeless e)
  | _ => e
  end.

(** Without the ghosts, the writers, the contexts, whether output is shown and standard
    input connected, the hints about colour in the environment of a command, and the
    lines errors point to. *)
Definition core (ev : event) : event :=
  match ev with
  | OClaim n _ s => OClaim n [] s
  | OCheck t i _ b => OCheck t i [] b
  | OStart x b =>
      OStart (Proc (x_task x) (x_path x) [] (x_cmd x) (List.filter (fun s => negb (colour_hint s)) (x_environ x)) (x_dir x)
                false false [] []) b
  | OPrompt t p q a => OPrompt t p (plain_prompt q) a
  | OLog t p text level _ => OLog t p text level []
  | OWould t p (WPar n _) => OWould t p (WPar n [])
  | OGiveUp t p j _ => OGiveUp t p j []
  | ORet t p r => ORet t p (placeless <$> r)
  | OReturn t p j r => OReturn t p j (placeless <$> r)
  | _ => ev
  end.
Definition happenings (h : hist) : hist := map core (List.filter (fun ev => negb (shown ev)) h).

(** Nobody quits a TUI, and TUIs can be started. An interrupt is allowed. *)
Definition watched (ev : event) : Prop :=
  match ev with
  | OCancel i => i = 0
  | OTui b => b = true
  | _ => True
  end.
