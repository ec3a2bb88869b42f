(** The data a Babfile is parsed into (internal/babfile). *)
From Verif Require Import Base.

(** A nil-able Go map from strings to strings: [None] is the nil map. *)
Definition smap : Type := option (gmap str str).

(** Reading a possibly nil map: a nil map has no entries. *)
Definition smap_get (m : smap) : gmap str str := default ∅ m.

(** internal/babfile/run_cmd.go 8-17. A [*bool] is an [option bool]. *)
Record cmd_run := CmdRun {
  c_line : nat; c_cmd : str; c_dir : str; c_env : smap;
  c_silent : option bool; c_output : option bool;
  c_platforms : list str; c_when : str }.

(** internal/babfile/run_task.go 8-15. *)
Record task_run := TaskRun {
  r_line : nat; r_task : str; r_silent : option bool; r_output : option bool;
  r_platforms : list str; r_when : str }.

(** internal/babfile/run_log.go 44-50. *)
Record log_run := LogRun {
  l_line : nat; l_log : str; l_level : str; l_platforms : list str; l_when : str }.

(** internal/babfile/run_prompt.go 56-71. *)
Record prompt_run := PromptRun {
  p_line : nat; p_prompt : str; p_type : str; p_message : str; p_platforms : list str;
  p_default : str; p_defaults : list str; p_options : list str; p_placeholder : str;
  p_validate : str; p_min : option Z; p_max : option Z; p_confirm : option bool; p_when : str }.

(** internal/babfile/run_parallel.go 29-40, without [Items]. *)
Record par_opts := ParOpts {
  q_line : nat; q_labels : list str; q_mode : str; q_limit : Z; q_color : option bool;
  q_silent : option bool; q_output : option bool; q_platforms : list str; q_when : str }.

(** internal/babfile/run.go 5-10: the [RunItem] interface and its five
    implementations. The Go types allow a parallel block inside another one. *)
Inductive run_item :=
| RCmd (c : cmd_run)
| RTask (t : task_run)
| RLog (l : log_run)
| RPrompt (p : prompt_run)
| RPar (o : par_opts) (items : list run_item).

(** internal/babfile/task.go 10-26. *)
Record task := Task {
  t_name : str; t_line : nat; t_deps_line : nat; t_source : str; t_desc : str;
  t_alias : str; t_aliases : list str; t_vars : smap; t_env : smap;
  t_silent : option bool; t_output : option bool; t_dir : str; t_when : str;
  t_deps : list str; t_run : list run_item }.

(** internal/babfile/task.go 39: [TaskMap]. *)
Notation taskmap := (gmap str task).

(** internal/babfile/task.go 28-37. *)
Definition get_all_aliases (t : task) : list str :=
  (match t_alias t with [] => [] | a => [a] end) ++ t_aliases t.

(** internal/babfile/task.go 41-44. *)
Definition tm_has (tm : taskmap) (name : str) : bool := bool_decide (is_Some (tm !! name)).

(** internal/babfile/run.go 34-44. *)
Definition matches_platform (platforms : list str) (platform : str) : bool :=
  match platforms with
  | [] => true
  | _ => bool_decide (platform ∈ platforms)
  end.

(** internal/babfile/variable.go 9-17 and env.go 24-32 for two maps: the second
    overrides the first, the result is never nil. *)
Definition merge_maps (a b : smap) : smap := Some (smap_get b ∪ smap_get a).

(** Induction over run items, with the hypothesis for the children of a block. *)
Section run_item_ind.
  Context (P : run_item -> Prop)
    (Hc : forall c, P (RCmd c)) (Ht : forall t, P (RTask t)) (Hl : forall l, P (RLog l))
    (Hp : forall p, P (RPrompt p)) (Hq : forall o items, Forall P items -> P (RPar o items)).

  Fixpoint run_item_rec' (it : run_item) : P it :=
    match it with
    | RCmd c => Hc c
    | RTask t => Ht t
    | RLog l => Hl l
    | RPrompt p => Hp p
    | RPar o items =>
        Hq o items ((fix go (l : list run_item) : Forall P l :=
          match l with
          | [] => Forall_nil_2 P
          | i :: r => Forall_cons_2 P i r (run_item_rec' i) (go r)
          end) items)
    end.
End run_item_ind.
