(** When a dependency is already brought by another, and what is compared of two runs. *)
From Verif Require Import Base Types_Model Run_Model Run_Spec.

(** Once [b] is done, [d] is: they are the same, or [b] has no [when] and a dependency that brings [d].
    (A task whose [when] does not hold is done without its dependencies.) *)
Inductive brings (tasks : taskmap) : str -> str -> Prop :=
| br_self d : brings tasks d d
| br_dep b t c d : tasks !! b = Some t -> t_when t = [] -> c ∈ t_deps t -> brings tasks c d -> brings tasks b d.

(** The second list of dependencies has every one of the first, in their order, and besides only
    some that one listed before brings. *)
Inductive widened (tasks : taskmap) : list str -> list str -> list str -> Prop :=
| wi_nil before : widened tasks before [] []
| wi_same before d l1 l2 : widened tasks (d :: before) l1 l2 -> widened tasks before (d :: l1) (d :: l2)
| wi_extra before b d l1 l2 : b ∈ before -> brings tasks b d -> widened tasks before l1 l2 -> widened tasks before l1 (d :: l2).

Definition with_deps (t : task) (deps : list str) : task :=
  Task (t_name t) (t_line t) (t_deps_line t) (t_source t) (t_desc t) (t_alias t) (t_aliases t) (t_vars t) (t_env t)
    (t_silent t) (t_output t) (t_dir t) (t_when t) deps (t_run t).

(** The second task map differs from the first in such dependencies only. *)
Definition widened_tasks (tasks1 tasks2 : taskmap) : Prop :=
  forall n, match tasks1 !! n with
            | None => tasks2 !! n = None
            | Some t => exists deps, tasks2 !! n = Some (with_deps t deps) /\ widened tasks1 [] (t_deps t) deps
            end.

(** An error without the circle that a report of circular dependencies shows. *)
Fixpoint plain_err (e : rerr) : rerr :=
  match e with
  | RCircular _ => RCircular []
  | RDep d e => RDep d (plain_err e)
  | RPreDep d e => RPreDep d (plain_err e)
  | RItem j e => RItem j (plain_err e)
  | e => e
  end.
Definition plain (r : outcome) : outcome := plain_err <$> r.
Definition plain_event (ev : event) : event :=
  match ev with
  | ORet t pa r => ORet t pa (plain r)
  | OReturn t pa j r => OReturn t pa j (plain r)
  | ev => ev
  end.

(** Finding that a task is done has no effect. *)
Definition found_done (ev : event) : bool :=
  match ev with OClaim _ _ Done | OGet _ Done => true | _ => false end.
Definition effects (h : hist) : list event := map plain_event (List.filter (fun ev => negb (found_done ev)) h).
