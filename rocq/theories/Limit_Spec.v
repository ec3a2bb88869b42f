(** Babfiles that differ in the limits of parallel blocks only. *)
From Verif Require Import Base Types_Model Run_Model.

Definition with_limit (z : Z) (o : par_opts) : par_opts :=
  ParOpts (q_line o) (q_labels o) (q_mode o) z (q_color o) (q_silent o) (q_output o) (q_platforms o) (q_when o).
Definition with_run (items : list run_item) (t : task) : task :=
  Task (t_name t) (t_line t) (t_deps_line t) (t_source t) (t_desc t) (t_alias t) (t_aliases t) (t_vars t) (t_env t)
    (t_silent t) (t_output t) (t_dir t) (t_when t) (t_deps t) items.

(** For a block of [n] items the second limit allows at least what the first allows; 0 or
    less is no limit, and neither is the number of items or more. *)
Definition raised (n : nat) (z z' : Z) : Prop := (z' <= 0 \/ 0 < z <= z' \/ Z.of_nat n <= z')%Z.
(** Some limits are raised. [keep]: a limit stays one, though it may be as high as one
    likes. *)
Inductive raised_item (keep : Prop) : run_item -> run_item -> Prop :=
| raised_same it : raised_item keep it it
| raised_block o items z : raised (length items) (q_limit o) z -> (keep -> (0 < q_limit o)%Z -> (0 < z)%Z) ->
    raised_item keep (RPar o items) (RPar (with_limit z o) items).
Definition raised_task (keep : Prop) (t t' : task) : Prop :=
  exists items, t' = with_run items t /\ Forall2 (raised_item keep) (t_run t) items.
Definition raised_tasks (keep : Prop) (tasks tasks' : taskmap) : Prop :=
  forall n, match tasks !! n, tasks' !! n with
            | None, None => True | Some t, Some t' => raised_task keep t t' | _, _ => False
            end.

(** All limits left out. *)
Definition unlimited_item (it : run_item) : run_item :=
  match it with RPar o items => RPar (with_limit 0 o) items | _ => it end.
Definition unlimited_task (t : task) : task := with_run (map unlimited_item (t_run t)) t.
Definition unlimited (tasks : taskmap) : taskmap := unlimited_task <$> tasks.
(** The two Babfiles differ in the limits of their blocks only. *)
Definition same_but_limits (tasks tasks' : taskmap) : Prop := unlimited tasks = unlimited tasks'.

(** An event without the ghost that tells through which blocks, with which options, the
    task was reached. *)
Definition bare (ev : event) : event :=
  match ev with
  | OClaim n _ s => OClaim n [] s
  | OStart x b => OStart (Proc (x_task x) (x_path x) [] (x_cmd x) (x_environ x) (x_dir x) (x_show x) (x_stdin x) (x_ctx x) (x_out x)) b
  | _ => ev
  end.
