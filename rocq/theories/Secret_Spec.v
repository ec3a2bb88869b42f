(** Who can see the answer to a question, or the value of a variable. *)
From Verif Require Import Base Types_Model Interp_Spec Run_Model Run_Spec.

Section Uses.
  (** The secrets: variables that are asked for or get other values, and those that are made from
      them. [env.X] is the name of the environment variable [X]. *)
  Context (k : config) (tasks : taskmap) (V : gset str).

  (** The text refers to a secret. *)
  Definition uses (s : str) : Prop := exists ps n, reads s ps /\ n ∈ refs_of ps /\ n ∈ V.
  (** The text has a reference or an escape, or could hide one. *)
  Definition rich (s : str) : Prop := (exists a b, s = a ++ lit "${{" ++ b) \/ "000"%char ∈ s.

  (** Secrets do not reach other variables, conditions, or environments of whole tasks. *)
  Record confined : Prop := {
    cf_vars : forall T t vs x s, tasks !! T = Some t -> t_vars t = Some vs -> vs !! x = Some s -> uses s -> x ∈ V;
    cf_when : forall T t, tasks !! T = Some t -> ~ uses (t_when t);
    cf_item : forall T t i it, tasks !! T = Some t -> t_run t !! i = Some it -> ~ uses (item_when it);
    cf_env : forall T t x s, tasks !! T = Some t -> smap_get (t_env t) !! x = Some s -> ~ uses s;
    cf_global : forall x s, smap_get (k_env k) !! x = Some s -> ~ uses s }.

  (** The directory given for a command. *)
  Definition dir_given (t : task) (c : cmd_run) : str :=
    match c_dir c with [] => match t_dir t with [] => k_dir k | d => d end | d => d end.

  (** The item refers to a secret: in its own texts, in its directory, or possibly by way of
      the environment of the task, which is expanded twice. *)
  Definition item_speaks (t : task) (it : run_item) : Prop :=
    match it with
    | RCmd c => uses (c_cmd c) \/ (exists x s, smap_get (c_env c) !! x = Some s /\ uses s) \/ uses (dir_given t c) \/
                (exists x s, (smap_get (t_env t) !! x = Some s \/ smap_get (k_env k) !! x = Some s) /\ rich s)
    | RLog l => uses (l_log l)
    | RPrompt p => uses (p_message p) \/ uses (p_default p) \/ uses (p_placeholder p) \/
                   (exists s, s ∈ p_options p /\ uses s) \/ (exists s, s ∈ p_defaults p /\ uses s)
    | _ => False
    end.
  Definition speaks (T : str) (pa : list nat) : Prop := exists t it, tasks !! T = Some t /\ item_at t pa it /\ item_speaks t it.

  (** Nothing refers to the secrets, not even where the answer to a question may bring it in. *)
  Record unread : Prop := {
    un_vars : forall T t vs x s, tasks !! T = Some t -> t_vars t = Some vs -> vs !! x = Some s -> ~ uses s;
    un_items : forall T t pa it, tasks !! T = Some t -> item_at t pa it -> ~ item_speaks t it }.
End Uses.

Section Secret.
  (** Two runs of the same tasks, with secrets [V]. One of them may lack the variables [U]. *)
  Context (k k' : config) (tasks : taskmap) (V U : gset str).
  Notation speaks := (speaks k tasks V).
  (** The answer to give instead, by task, item and answer given. *)
  Context (other : str -> list nat -> str -> str).

  (** The second is run with other values of variables and another environment. *)
  Record changed : Prop := {
    ch_dry : k_dry k' = k_dry k; ch_env : k_env k' = k_env k; ch_silent : k_silent k' = k_silent k; ch_output : k_output k' = k_output k;
    ch_dir : k_dir k' = k_dir k; ch_os : k_os k' = k_os k; ch_terminal : k_terminal k' = k_terminal k;
    ch_getenv : forall x, k_getenv k' x = k_getenv k x \/ lit "env." ++ x ∈ V }.

  (** Variables that agree apart from the secrets. *)
  Definition agree (m m' : gmap str str) : Prop :=
    forall x, match m !! x, m' !! x with
              | None, None => True
              | Some v, Some v' => x ∈ V \/ v = v'
              | _, _ => x ∈ U
              end.

  (** Errors that agree apart from what items that refer to a secret put into them. *)
  Inductive err_alike : rerr -> rerr -> Prop :=
  | err_same e : err_alike e e
  | err_cmd T pa c c' : speaks T pa -> err_alike (RCmdFailed T c) (RCmdFailed T c')
  | err_dir T pa d d' : speaks T pa -> err_alike (RDirStat T d) (RDirStat T d')
  | err_dep d e e' : err_alike e e' -> err_alike (RDep d e) (RDep d e')
  | err_pre d e e' : err_alike e e' -> err_alike (RPreDep d e) (RPreDep d e')
  | err_item j e e' : err_alike e e' -> err_alike (RItem j e) (RItem j e').
  Inductive out_alike : outcome -> outcome -> Prop :=
  | out_fine : out_alike None None
  | out_err e e' : err_alike e e' -> out_alike (Some e) (Some e').

  Definition would_alike (w w' : would) : Prop :=
    match w, w' with
    | WCmd _ n _, WCmd _ n' _ => n = n'
    | WLog _ l, WLog _ l' => l = l'
    | WPrompt v t _, WPrompt v' t' _ => v = v' /\ t = t'
    | _, _ => w = w'
    end.

  (** The same thing happens in a run where the secret is another one: it is equal, apart
      from the secret itself, where it is stored, and the items that refer to it. *)
  Definition open_to_change (ev : event) : Prop := match ev with OPrompt _ _ q _ => p_prompt q ∈ V | OStart _ _ => True | _ => False end.
  Inductive alike : event -> event -> Prop :=
  | same_event ev : ~ open_to_change ev -> alike ev ev
  | alike_answer T pa q q' a : p_prompt q ∈ V -> p_prompt q' = p_prompt q -> speaks T pa \/ q' = q ->
      alike (OPrompt T pa q (Some a)) (OPrompt T pa q' (Some (other T pa a)))
  | alike_refused T pa q q' : p_prompt q ∈ V -> p_prompt q' = p_prompt q -> speaks T pa \/ q' = q ->
      alike (OPrompt T pa q None) (OPrompt T pa q' None)
  | alike_question T pa q q' r : p_prompt q ∉ V -> p_prompt q' = p_prompt q -> speaks T pa ->
      alike (OPrompt T pa q r) (OPrompt T pa q' r)
  | alike_alloc T pa m m' l : agree m m' -> alike (OAlloc T pa m l) (OAlloc T pa m' l)
  | alike_read T pa m m' l : agree m m' -> alike (ORead T pa l m) (ORead T pa l m')
  | alike_write T pa l x v v' : x ∈ V -> alike (OWrite T pa l x v) (OWrite T pa l x v')
  | alike_order m m' o : (forall x, is_Some (m !! x) <-> is_Some (m' !! x)) -> alike (OOrder m o) (OOrder m' o)
  | alike_stat T pa d d' s : speaks T pa -> alike (OStat T pa d s) (OStat T pa d' s)
  | alike_inherited T pa sc c e d show stdin cx out b :
      alike (OStart (Proc T pa sc c (k_environ k ++ e) d show stdin cx out) b) (OStart (Proc T pa sc c (k_environ k' ++ e) d show stdin cx out) b)
  | alike_start T pa sc c c' e e' d d' show stdin cx out b : speaks T pa ->
      alike (OStart (Proc T pa sc c e d show stdin cx out) b) (OStart (Proc T pa sc c' e' d' show stdin cx out) b)
  | alike_echo T pa c c' d : speaks T pa -> alike (OEcho T pa c d) (OEcho T pa c' d)
  | alike_log T pa x x' l d : speaks T pa -> alike (OLog T pa x l d) (OLog T pa x' l d)
  | alike_would T pa w w' : speaks T pa -> would_alike w w' -> alike (OWould T pa w) (OWould T pa w')
  | alike_ret T pa r r' : out_alike r r' -> alike (ORet T pa r) (ORet T pa r')
  | alike_return T pa j r r' : out_alike r r' -> alike (OReturn T pa j r) (OReturn T pa j r').
End Secret.
