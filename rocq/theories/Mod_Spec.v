(** Running a task of a Babfile directly, and running it through an include. *)
From Verif Require Import Base Types_Model Interp_Spec Valid_Spec Path_Model Include_Model Run_Model Run_Spec Run_Main.

(** ** The same run, with other names *)
Section Named.
  (** The name a task has in the including Babfile. *)
  Context (pre : str -> str).

  (** Errors: the names of tasks in them are the new ones. Of an error in [vars], which variable
      it is about depends on the order of iteration over a map, so it may be another one. *)
  Fixpoint same_err (e1 e2 : rerr) : Prop :=
    match e1, e2 with
    | RNotFound n, RNotFound n' | RUnknownRef n, RUnknownRef n' | REmptyCmd n, REmptyCmd n' | RNoItems n, RNoItems n' => n' = pre n
    | RCircular c, RCircular c' => c' = map pre c
    | RTaskWhen n ln e, RTaskWhen n' ln' e' | RDirInterp n ln e, RDirInterp n' ln' e' => n' = pre n /\ ln' = ln /\ e' = e
    | RItemWhen n i ln e, RItemWhen n' i' ln' e' => n' = pre n /\ i' = i /\ ln' = ln /\ e' = e
    | RVars ln _, RVars ln' _ => ln' = ln
    | REnv ln e, REnv ln' e' | RInterp ln e, RInterp ln' e' => ln' = ln /\ e' = e
    | RDirStat n d, RDirStat n' d' | RCmdFailed n d, RCmdFailed n' d' | RPromptErr n d, RPromptErr n' d' => n' = pre n /\ d' = d
    | RCancelled, RCancelled | RUnsupported, RUnsupported | RTui, RTui | RFuel, RFuel => True
    | RDep d e, RDep d' e' | RPreDep d e, RPreDep d' e' => d' = pre d /\ same_err e e'
    | RItem j e, RItem j' e' => j' = j /\ same_err e e'
    | _, _ => False
    end.
  Definition same_result (r1 r2 : outcome) : Prop :=
    match r1, r2 with None, None => True | Some e1, Some e2 => same_err e1 e2 | _, _ => False end.

  (** Writers: the same, but labels in front of lines may contain the name of a task. *)
  Definition same_writer (w1 w2 : wframe) : Prop :=
    match w1, w2 with
    | WPrefix _ _, WPrefix _ _ => True
    | WKey p, WKey p' => p' = p
    | _, _ => False
    end.
  Definition same_dest (d1 d2 : dest) : Prop := Forall2 same_writer d1 d2.

  Definition same_would (w1 w2 : would) : Prop :=
    match w1, w2 with WTask n, WTask n' => n' = pre n | WTask _, _ => False | _, _ => w2 = w1 end.

  (** The same command, given the same environment and directory, connected in the same way. *)
  Definition same_process (x1 x2 : proc_info) : Prop :=
    x_task x2 = pre (x_task x1) /\ x_path x2 = x_path x1 /\ x_cmd x2 = x_cmd x1 /\ x_environ x2 = x_environ x1 /\ x_dir x2 = x_dir x1 /\
    x_show x2 = x_show x1 /\ x_stdin x2 = x_stdin x1 /\ x_ctx x2 = x_ctx x1 /\ same_dest (x_out x1) (x_out x2).

  (** Handling of variables inside bab, which shows only in what is done with them. *)
  Definition inner (ev : event) : bool :=
    match ev with OOrder _ _ | OAlloc _ _ _ _ | ORead _ _ _ _ | OWrite _ _ _ _ _ => true | _ => false end.
  (** Everything else that happens: the same, for the task of the new name. *)
  Definition same_event (e1 e2 : event) : Prop :=
    match e1, e2 with
    | OClaim n _ s, OClaim n' _ s' | OGet n s, OGet n' s' => n' = pre n /\ s' = s
    | ODone n, ODone n' | OSkipTask n, OSkipTask n' => n' = pre n
    | OSnapshot m, OSnapshot m' => forall n, m' !! pre n = m !! n
    | OCheck t i c b, OCheck t' i' c' b' => t' = pre t /\ i' = i /\ c' = c /\ b' = b
    | OStat t p d s, OStat t' p' d' s' => t' = pre t /\ p' = p /\ d' = d /\ s' = s
    | OSkip t p w, OSkip t' p' w' => t' = pre t /\ p' = p /\ w' = w
    | OHeader n m d, OHeader n' m' d' => n' = pre n /\ m' = m /\ same_dest d d'
    | OEcho t p c d, OEcho t' p' c' d' => t' = pre t /\ p' = p /\ c' = c /\ same_dest d d'
    | OStart x b, OStart x' b' => same_process x x' /\ b' = b
    | OEnd t p b, OEnd t' p' b' => t' = pre t /\ p' = p /\ b' = b
    | OPrompt t p q a, OPrompt t' p' q' a' => t' = pre t /\ p' = p /\ q' = q /\ a' = a
    | OLog t p x l d, OLog t' p' x' l' d' => t' = pre t /\ p' = p /\ x' = x /\ l' = l /\ same_dest d d'
    | OSummary t p f d, OSummary t' p' f' d' => t' = pre t /\ p' = p /\ f' = f /\ same_dest d d'
    | OWould t p w, OWould t' p' w' => t' = pre t /\ p' = p /\ same_would w w'
    | ONewCtx c i, ONewCtx c' i' => c' = c /\ i' = i
    | OTui b, OTui b' => b' = b
    | ORet t p r, ORet t' p' r' => t' = pre t /\ p' = p /\ same_result r r'
    | OSlot t p j, OSlot t' p' j' | OFree t p j, OFree t' p' j' => t' = pre t /\ p' = p /\ j' = j
    | OGiveUp t p j c, OGiveUp t' p' j' c' => t' = pre t /\ p' = p /\ j' = j /\ c' = c
    | OReturn t p j r, OReturn t' p' j' r' => t' = pre t /\ p' = p /\ j' = j /\ same_result r r'
    | OJoin t p, OJoin t' p' => t' = pre t /\ p' = p
    | OCancel i, OCancel i' => i' = i
    | _, _ => False
    end.
  Definition told (h : hist) : hist := List.filter (fun ev => negb (inner ev)) h.
  Definition same_history (h1 h2 : hist) : Prop := Forall2 same_event (told h1) (told h2).
End Named.

(** ** Tasks that do not depend on being in the root file *)
Definition asks (t : task) : Prop := exists p, RPrompt p ∈ t_run t.
(** [s] names variable [n] somewhere, be it behind an escape. *)
Definition names_var (s n : str) : Prop := (exists a t b, s = a ++ t ++ b /\ ref_text t n) /\ forall e, n <> lit "env." ++ e.

(** [fv]: the variables of the file; [tasks]: all tasks it has, included ones with them. *)
Record portable (fv : gmap str str) (tasks : taskmap) (root : str) : Prop := {
  (** the conditions of whole tasks refer to no variables, only to the environment *)
  po_when T t ps n : rtc (edge tasks) root T -> tasks !! T = Some t -> reads (t_when t) ps -> n ∈ refs_of ps -> exists x, n = lit "env." ++ x;
  (** a task that asks questions has variables of its own *)
  po_asks T t : rtc (edge tasks) root T -> tasks !! T = Some t -> asks t -> t_vars t <> None;
  (** what the variables of the file are made from is not redefined by a task *)
  po_vars T t x s n : rtc (edge tasks) root T -> tasks !! T = Some t -> fv !! x = Some s -> smap_get (t_vars t) !! x = None ->
    names_var s n -> smap_get (t_vars t) !! n = None;
  (** blocks do not set [silent] and [output], which includes leave out *)
  po_blocks T t i o items : rtc (edge tasks) root T -> tasks !! T = Some t -> t_run t !! i = Some (RPar o items) -> q_silent o = None /\ q_output o = None }.

(** ** Two ways to the same file *)
(** The same files, environment and platform; bab may be called from another directory, and ranges
    over maps may take another order. *)
Definition same_machine (w1 w2 : world) : Prop :=
  w_fs w2 = w_fs w1 /\ w_getenv w2 = w_getenv w1 /\ w_environ w2 = w_environ w1 /\ w_os w2 = w_os w1 /\ w_terminal w2 = w_terminal w1.
(** The settings for all tasks of a file are not made. *)
Definition no_settings (bf : schema) : Prop :=
  smap_get (f_vars bf) = ∅ /\ smap_get (f_env bf) = ∅ /\ f_silent bf = None /\ f_output bf = None /\ f_dir bf = [].
(** File [path1], seen from [w1], is the one that [path2], seen from [w2], includes as [ns]; [bf1] and [bf2] is what they say. *)
Record includes_it (w1 w2 : world) (path1 path2 ns : str) (bf1 bf2 : schema) : Prop := {
  in_file : w_fs w1 !! abs_path (w_cwd w1) (clean path1) = Some (Some bf1);
  in_root : w_fs w2 !! abs_path (w_cwd w2) (clean path2) = Some (Some bf2);
  in_path : exists p, f_includes bf2 !! ns = Some p /\
    clean (if is_abs p then p else join2 (dir (abs_path (w_cwd w2) (clean path2))) p) = abs_path (w_cwd w1) (clean path1) }.
