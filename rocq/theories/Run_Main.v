(** [Runner.Run] (internal/runner/runner.go 49-95): load the Babfile, resolve the
    global variables, then run. *)
From Verif Require Import Base Interp_Model Types_Model Valid_Model Path_Model Include_Model Run_Model.

(** What [Run] depends on besides its arguments: files, current directory,
    iteration orders, environment, platform, terminal. *)
Record world := World {
  w_fs : fsys; w_cwd : str; w_orc : oracle; w_grow : nat -> nat; w_vorc : taskmap -> vorders;
  w_order : gmap str str -> list str;
  w_getenv : str -> str; w_environ : list str; w_os : str; w_terminal : bool }.

(** Why a run did not even begin. *)
Inductive load_err := LParse (e : perr) | LVars (e : ierr).

(** runner.go 64-82; [path] is the Babfile that [LoadTasks] (49-61) settled on. *)
Definition loaded (w : world) (dry : bool) (r : presult) (vars : gmap str str) : config :=
  Config dry vars (pr_env r) (pr_silent r) (pr_output r) (pr_dir r) (w_getenv w) (w_environ w) (w_os w) (w_terminal w).
Definition load (w : world) (dry : bool) (path name : str) : res load_err (config * taskmap * str) :=
  match parse (w_fs w) (w_orc w) (w_grow w) (w_vorc w) (w_cwd w) path with
  | Err e => Err (LParse e)
  | Ok r =>
      match resolve_vars (w_getenv w) (pr_vars r) None (w_order w (smap_get (pr_vars r))) with
      | Err e => Err (LVars e)
      | Ok vars => Ok (loaded w dry r vars, pr_tasks r, resolve_task_name (pr_aliases r) name)
      end
  end.
