(** Specification of a well-formed task map, without the validation code. *)
From Verif Require Import Base Types_Model.
From Verif Require Export Interp_Spec.

(** [refers items n]: some item, at any nesting depth, is [task: n]. *)
Inductive refers : list run_item -> str -> Prop :=
| refers_here r rest : refers (RTask r :: rest) (r_task r)
| refers_inside o sub rest n : refers sub n -> refers (RPar o sub :: rest) n
| refers_later it rest n : refers rest n -> refers (it :: rest) n.

(** [n] is named by task [a]: as a dependency or in its run list. *)
Definition edge (tasks : taskmap) (a n : str) : Prop :=
  exists t, tasks !! a = Some t /\ (n ∈ t_deps t \/ refers (t_run t) n).

Definition dangling (tasks : taskmap) : Prop :=
  exists a n, edge tasks a n /\ tasks !! n = None.

(** Some task reaches itself. *)
Definition cyclic (tasks : taskmap) : Prop := exists a, tc (edge tasks) a a.

(** Task [n] declares alias [a] at position [i] of its alias list (0 is the
    [alias:] field, the others are [aliases:]). *)
Definition declares (tasks : taskmap) (n : str) (i : nat) (a : str) : Prop :=
  exists t, tasks !! n = Some t /\ (t_alias t :: t_aliases t) !! i = Some a /\ a <> [].

(** Two declarations of one alias, or an alias that is a task name. *)
Definition ambiguous (tasks : taskmap) : Prop :=
  exists a n i, declares tasks n i a /\
    (is_Some (tasks !! a) \/ exists m j, declares tasks m j a /\ (m, j) <> (n, i)).

(** Lengths at which an array grown by [append] under policy [grow] is exactly
    full: 0 and the capacities allocated one after the other. For Go's doubling
    these are 0, 1, 2, 4, 8, ... *)
Definition tight (grow : nat -> nat) (k : nat) : Prop :=
  exists n, k = Nat.iter n (fun c => Nat.max (grow c) (S c)) 0.

(** [r] is the [task:] item [it] itself or one inside the block [it], at any depth. *)
Inductive at_depth : run_item -> task_run -> Prop :=
| at_depth_here r : at_depth (RTask r) r
| at_depth_in o l i r : i ∈ l -> at_depth i r -> at_depth (RPar o l) r.
