(** What it is that two sets of tasks have in common for a task, and files that grow. *)
From Verif Require Import Base Types_Model Valid_Spec Include_Model.

(** They have the same tasks wherever [n] leads. *)
Definition same_from (tasks1 tasks2 : taskmap) (n : str) : Prop :=
  forall m, rtc (edge tasks1) n m -> tasks1 !! m = tasks2 !! m.

(** Tasks and includes were added to a file, and nothing else was changed. *)
Record grown (b1 b2 : schema) : Prop := {
  gr_tasks : forall n t, f_tasks b1 !! n = Some t -> f_tasks b2 !! n = Some t;
  gr_includes : forall ns p, f_includes b1 !! ns = Some p -> f_includes b2 !! ns = Some p;
  gr_rest : f_vars b2 = f_vars b1 /\ f_env b2 = f_env b1 /\ f_silent b2 = f_silent b1 /\ f_output b2 = f_output b1 /\ f_dir b2 = f_dir b1 }.
(** ... to some of the files. *)
Definition grown_files (fs1 fs2 : fsys) : Prop :=
  forall p b1, fs1 !! p = Some (Some b1) -> exists b2, fs2 !! p = Some (Some b2) /\ grown b1 b2.
