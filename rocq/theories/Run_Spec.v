(** What a run should do, said about the events of a run and the tasks as written.
    Only types and events of the model are used here, none of its functions that
    decide what happens (apart from [interpolate], [evaluate] and [resolve_vars],
    whose own meaning is the subject of P_Interp and P_Cond). *)
From Verif Require Import Base Interp_Model Cond_Model Types_Model Path_Model Run_Model.

(** ** Items and positions *)

(** Item [[i]] is the [i]-th of the task, item [[i; j]] the [j]-th of the parallel
    block that is item [[i]]. *)
Definition item_at (t : task) (pa : list nat) (it : run_item) : Prop :=
  match pa with
  | [i] => t_run t !! i = Some it
  | [i; j] => exists o items, t_run t !! i = Some (RPar o items) /\ items !! j = Some it
  | _ => False
  end.

Definition top (pa : list nat) : nat := default 0 (head pa).

(** ** How a task was reached *)
Section Scope.
  Context (tasks : taskmap) (root : str).

  Inductive reached : str -> scope -> Prop :=
  | reached_root : reached root []
  | reached_dep T t s d : reached T s -> tasks !! T = Some t -> d ∈ t_deps t -> reached d (FDep T :: s)
  | reached_ref T t s i r : reached T s -> tasks !! T = Some t -> t_run t !! i = Some (RTask r) ->
      reached (r_task r) (FRef T [i] r :: s)
  | reached_par T t s i o items j r : reached T s -> tasks !! T = Some t ->
      t_run t !! i = Some (RPar o items) -> items !! j = Some (RTask r) ->
      reached (r_task r) (FRef T [i; j] r :: FBlock T [i] o :: s)
  | reached_pre T t s i o items r t' d : reached T s -> tasks !! T = Some t ->
      t_run t !! i = Some (RPar o items) -> RTask r ∈ items -> tasks !! r_task r = Some t' -> d ∈ t_deps t' ->
      reached d (FPre T [i] :: FBlock T [i] o :: s).

  (** The scope an item of [T] runs in, when [T] itself was reached by [s]. *)
  Definition item_scope (T : str) (t : task) (pa : list nat) (s sc : scope) : Prop :=
    match pa with
    | [i] => sc = s
    | [i; j] => exists o items, t_run t !! i = Some (RPar o items) /\ sc = FBlock T [i] o :: s
    | _ => False
    end.
End Scope.

(** The override that applies in a scope: a dependency starts afresh, a task
    reference or a parallel block overrides what is outside of it. *)
Definition first_set (a b : option bool) : option bool := match a with None => b | _ => a end.
Fixpoint override (of_ref : task_run -> option bool) (of_block : par_opts -> option bool) (s : scope) : option bool :=
  match s with
  | [] => None
  | FDep _ :: _ => None
  | FRef _ _ r :: s' => first_set (of_ref r) (override of_ref of_block s')
  | FBlock _ _ o :: s' => first_set (of_block o) (override of_ref of_block s')
  | FPre _ _ :: s' => override of_ref of_block s'
  end.
Definition override_silent := override r_silent q_silent.
Definition override_output := override r_output q_output.

(** Is the output collected by a parallel block? Dependencies that a block
    resolves beforehand still belong to the outside. *)
Fixpoint in_block (s : scope) : bool :=
  match s with
  | [] => false
  | FPre _ _ :: s' => match s' with FBlock _ _ _ :: s'' => in_block s'' | _ => in_block s' end
  | FBlock _ _ _ :: _ => true
  | _ :: s' => in_block s'
  end.
Fixpoint no_color (s : scope) : bool :=
  match s with
  | [] => false
  | FBlock _ _ o :: s' => bool_decide (q_color o = Some false) || no_color s'
  | _ :: s' => no_color s'
  end.

(** ** Success of items *)
Section Items.
  Context (dry : bool) (h : hist).

  (** A command, reference or log at position [pa] of [T] is through, successfully. *)
  Definition leaf_ok (T : str) (pa : list nat) (it : run_item) : Prop :=
    match it with
    | RCmd c => if dry then (exists w, OWould T pa w ∈ h)
                else (exists x, x_task x = T /\ x_path x = pa /\ OStart x true ∈ h) /\ OEnd T pa true ∈ h
    | RTask r => if dry then (exists w, OWould T pa w ∈ h) else ODone (r_task r) ∈ h
    | RLog lg => if dry then (exists w, OWould T pa w ∈ h) else exists text d, OLog T pa text (l_level lg) d ∈ h
    | _ => False
    end.

  (** The same for item [i] of [T]. Items of a block may have been given up when the
      context was cancelled while they waited for a slot. *)
  Definition item_ok (T : str) (i : nat) (it : run_item) : Prop :=
    match it with
    | RPrompt p => if dry then (exists w, OWould T [i] w ∈ h) else exists q v, OPrompt T [i] q (Some v) ∈ h
    | RPar o items =>
        if dry then (exists w, OWould T [i] w ∈ h)
        else OJoin T [i] ∈ h /\
             forall j it', items !! j = Some it' ->
               (OReturn T [i] j None ∈ h /\ leaf_ok T [i; j] it') \/
               (exists c, OGiveUp T [i] j c ∈ h /\ (0 < q_limit o)%Z /\ cancelled h c)
    | _ => leaf_ok T [i] it
    end.

  Definition settled (T : str) (i : nat) (it : run_item) : Prop :=
    (item_ok T i it /\ ORet T [i] None ∈ h) \/ exists w, OSkip T [i] w ∈ h.

  (** Every process that was started for [pa] has ended. *)
  Definition quiet (T : str) (pa : list nat) : Prop :=
    forall x, x_task x = T -> x_path x = pa -> OStart x true ∈ h -> exists ok, OEnd T pa ok ∈ h.

  (** [r] is the error of the item of block [pa] that failed first, if any failed. *)
  Definition first_failure (T : str) (pa : list nat) (r : outcome) : Prop :=
    match r with
    | None => forall j e, OReturn T pa j (Some e) ∉ h
    | Some e => exists h1 h2 j e', e = RItem j e' /\ h = h1 ++ OReturn T pa j (Some e') :: h2 /\
                  forall j' e'', OReturn T pa j' (Some e'') ∉ h2
    end.
End Items.

(** ** Variables *)
Section Vars.
  Context (k : config) (h : hist) (t : task).

  (** The value the global map had at some moment so far. *)
  Definition globals_once (m : gmap str str) : Prop := exists h', h' `suffix_of` h /\ m = heap_of (k_vars k) h' 0.

  (** The variables of a task with [vars], before its item [i]: resolved against the
      global ones when the task began, then every answer given since. *)
  Inductive task_vars : nat -> gmap str str -> Prop :=
  | tv_base vs globals order l m :
      t_vars t = Some vs -> globals_once globals -> order ≡ₚ (map_to_list vs).*1 ->
      resolve_vars (k_getenv k) (Some vs) (Some globals) order = Ok m ->
      OAlloc (t_name t) [] m l ∈ h -> task_vars 0 m
  | tv_answer i m p q v : task_vars i m -> t_run t !! i = Some (RPrompt p) ->
      OPrompt (t_name t) [i] q (Some v) ∈ h -> task_vars (S i) (<[p_prompt p := v]> m)
  | tv_same i m it : task_vars i m -> t_run t !! i = Some it ->
      (forall p, it <> RPrompt p) \/ (exists w, OSkip (t_name t) [i] w ∈ h) \/ (exists w, OWould (t_name t) [i] w ∈ h) ->
      task_vars (S i) m.

  (** The variables an item at [pa] sees. *)
  Definition sees (pa : list nat) (m : gmap str str) : Prop :=
    match t_vars t with
    | Some _ => task_vars (top pa) m
    | None => globals_once m
    end.
End Vars.

(** ** Errors *)
(** The reason inside the wrappings of an error. *)
Fixpoint reason (e : rerr) : rerr :=
  match e with RDep _ e' | RPreDep _ e' | RItem _ e' => reason e' | _ => e end.
