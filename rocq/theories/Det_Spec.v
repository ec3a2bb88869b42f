(** When two runs do the same: the same things in the same order, whatever order Go
    gives the entries of a map in. *)
From Verif Require Import Base Interp_Model Interp_Spec Types_Model Vars_Proof Run_Model.
Notation outcome := (option rerr).

(** Errors that say the same but for which variable of a map they name. *)
Inductive same_reason : rerr -> rerr -> Prop :=
| sr_refl e : same_reason e e
| sr_env ln e e' : same_reason (REnv ln e) (REnv ln e')
| sr_vars ln e e' : same_reason (RVars ln e) (RVars ln e')
| sr_dep d e e' : same_reason e e' -> same_reason (RDep d e) (RDep d e').
Inductive same_outcome : outcome -> outcome -> Prop :=
| so_ok : same_outcome None None
| so_err e e' : same_reason e e' -> same_outcome (Some e) (Some e').

(** The variables of [m] as a command gets them. *)
Definition entries (m : gmap str str) (order : list str) : list str := map (fun n => n ++ "="%char :: default [] (m !! n)) order.

Section Same.
  Context (k : config) (tasks : taskmap).

  (** A name under some [env] of the Babfile. *)
  Definition declared (n : str) : Prop :=
    is_Some (smap_get (k_env k) !! n) \/
    exists T t, tasks !! T = Some t /\ (is_Some (smap_get (t_env t) !! n) \/ exists c, RCmd c ∈ t_run t /\ is_Some (smap_get (c_env c) !! n)).

  (** The same command at the same place; its own variables may be in another order. *)
  Record same_proc (x x' : proc_info) : Prop := {
    sp_task : x_task x = x_task x'; sp_path : x_path x = x_path x'; sp_scope : x_scope x = x_scope x';
    sp_cmd : x_cmd x = x_cmd x'; sp_dir : x_dir x = x_dir x'; sp_show : x_show x = x_show x';
    sp_stdin : x_stdin x = x_stdin x'; sp_ctx : x_ctx x = x_ctx x'; sp_out : x_out x = x_out x';
    sp_environ : exists base m o o', x_environ x = base ++ entries m o /\ x_environ x' = base ++ entries m o' /\
      iteration_order m o /\ iteration_order m o' /\ forall n, is_Some (m !! n) -> declared n }.

  Inductive same_event : event -> event -> Prop :=
  | se_same ev : same_event ev ev
  | se_order m o o' : same_event (OOrder m o) (OOrder m o')
  | se_start x x' b : same_proc x x' -> same_event (OStart x b) (OStart x' b)
  | se_ret t p r r' : same_outcome r r' -> same_event (ORet t p r) (ORet t p r').

  (** No block is run: there is none, or it is a dry run. *)
  Definition no_blocks : Prop := k_dry k = true \/ forall T t o items, tasks !! T = Some t -> RPar o items ∉ t_run t.

  (** No text has a NUL in it: neither the Babfile, nor the environment. *)
  Definition texts_ok : Prop :=
    (forall n, nul_free (k_getenv k n)) /\ all_nul_free (k_vars k) /\ forall T t vs, tasks !! T = Some t -> t_vars t = Some vs -> all_nul_free vs.
End Same.

(** What the outside world answered, in order. *)
Inductive answer := AStat (s : statres) | AStart (b : bool) | AEnd (b : bool) | APrompt (a : option str) | ATui (b : bool).
Definition answer_of (ev : event) : option answer :=
  match ev with
  | OStat _ _ _ s => Some (AStat s)
  | OStart _ b => Some (AStart b)
  | OEnd _ _ b => Some (AEnd b)
  | OPrompt _ _ _ a => Some (APrompt a)
  | OTui b => Some (ATui b)
  | _ => None
  end.
Definition answered (h : hist) : list answer := rev (omap answer_of h).

(** The two runs are given the same answers, as far as each of them asks. *)
Definition same_answers (h h' : hist) : Prop := answered h `prefix_of` answered h' \/ answered h' `prefix_of` answered h.
Definition uncancelled (h : hist) : Prop := forall i, OCancel i ∉ h.
Definition answers_ok (h : hist) : Prop := forall v, APrompt (Some v) ∈ answered h -> nul_free v.
