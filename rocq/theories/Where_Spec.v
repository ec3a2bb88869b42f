(** Where the texts of a task are, for errors of variables at run time. *)
From Verif Require Import Base Types_Model Interp_Model Interp_Spec Run_Model Run_Spec.

(** The line and the problem of an error about a variable. *)
Definition reports_at (e : rerr) (line : nat) (what : ierr) : Prop :=
  match reason e with
  | RTaskWhen _ l x | RItemWhen _ _ l x | RVars l x | REnv l x | RInterp l x | RDirInterp _ l x => line = l /\ what = x
  | _ => False
  end.

(** [x] is a reference in the text, unescaped. *)
Definition refers (text x : str) : Prop := exists ps, reads text ps /\ x ∈ refs_of ps.

(** Where an item is written. *)
Definition line_of (it : run_item) : nat :=
  match it with
  | RCmd c => c_line c | RTask r => r_line r | RLog l => l_line l | RPrompt p => p_line p | RPar o _ => q_line o
  end.

(** The texts of an item of task [t] in which variables are filled in. If a command has no
    [dir], the one of the task or of the file is filled in for it. *)
Inductive text_in (k : config) (t : task) : run_item -> str -> Prop :=
| ti_when it : text_in k t it (match it with
    | RCmd c => c_when c | RTask r => r_when r | RLog l => l_when l | RPrompt p => p_when p | RPar o _ => q_when o end)
| ti_cmd c : text_in k t (RCmd c) (c_cmd c)
| ti_env c key v : smap_get (c_env c) !! key = Some v -> text_in k t (RCmd c) v
| ti_dir c : text_in k t (RCmd c) (match c_dir c with [] => match t_dir t with [] => k_dir k | d => d end | d => d end)
| ti_log l : text_in k t (RLog l) (l_log l)
| ti_prompt p s : s ∈ [p_message p; p_default p; p_placeholder p] ++ p_options p ++ p_defaults p -> text_in k t (RPrompt p) s.

(** What the environment of a task says: its own, over that of the file. *)
Definition env_text (k : config) (t : task) (key v : str) : Prop :=
  smap_get (t_env t) !! key = Some v \/ (smap_get (t_env t) !! key = None /\ smap_get (k_env k) !! key = Some v).

(** Line [line] is that of a text of task [t], which is filled in when [x] is not defined. *)
Inductive written (k : config) (h : hist) (t : task) (x : str) : nat -> str -> Prop :=
| wr_when globals : globals_once k h globals -> undefined_ref globals x -> written k h t x (t_line t) (t_when t)
| wr_vars globals vs key v : t_vars t = Some vs -> vs !! key = Some v -> globals_once k h globals ->
    undefined_ref vs x -> undefined_ref globals x -> written k h t x (t_line t) v
| wr_env vars key v : env_text k t key v -> sees k h t [] vars -> undefined_ref vars x -> written k h t x (t_line t) v
| wr_item pa it s vars : item_at t pa it -> text_in k t it s -> sees k h t pa vars -> undefined_ref vars x -> written k h t x (line_of it) s.

(** What was written in the environment of the task, after filling in, that is filled in again for
    a command. *)
Inductive filled_twice (k : config) (h : hist) (t : task) (x : str) : nat -> str -> Prop :=
| ft pa c key v0 v vars0 vars : item_at t pa (RCmd c) -> smap_get (c_env c) !! key = None -> env_text k t key v0 ->
    sees k h t [] vars0 -> interpolate (k_getenv k) vars0 v0 = Ok v ->
    sees k h t pa vars -> undefined_ref vars x -> filled_twice k h t x (c_line c) v.
