(** What the tasks of a tree of included files are, without the parsing code. *)
From Verif Require Import Base Types_Model Path_Model.
From Verif Require Export Valid_Spec.
From Verif Require Import Include_Model.

(** [ns1:ns2:...:m]. *)
Fixpoint qualify (nss : list str) (m : str) : str :=
  match nss with
  | [] => m
  | ns :: rest => ns ++ lit ":" ++ qualify rest m
  end.

(** The file an include of [p] written in file [path] points to. *)
Definition points_to (path p q : str) : Prop :=
  q = clean (if is_abs p then p else join2 (dir path) p).

Section Tree.
  Context (fs : fsys).

  (** File [a] includes file [b]. *)
  Definition includes (a b : str) : Prop :=
    exists bf ns p, fs !! a = Some (Some bf) /\ f_includes bf !! ns = Some p /\ points_to a p b.

  (** Following the namespaces [nss] from file [path] leads to file [f], which
      decodes to [bf]. [via] are the files passed through on the way, [f]'s first,
      without the starting file. *)
  Inductive leads : str -> list str -> list schema -> str -> schema -> Prop :=
  | leads_here path bf : fs !! path = Some (Some bf) -> leads path [] [] path bf
  | leads_step path bf0 ns p path' bf' nss via f bf :
      fs !! path = Some (Some bf0) -> f_includes bf0 !! ns = Some p -> points_to path p path' ->
      fs !! path' = Some (Some bf') -> leads path' nss via f bf ->
      leads path (ns :: nss) (via ++ [bf']) f bf.

  (** Task [m] of file [f], seen from [path] as [qualify nss m]. *)
  Definition origin (path : str) (nss : list str) (via : list schema) (f m : str) (t0 : task) : Prop :=
    exists bf, leads path nss via f bf /\ f_tasks bf !! m = Some t0.

  Definition readable_tree (path : str) : Prop :=
    forall f, rtc includes path f -> exists bf, fs !! f = Some (Some bf).
  Definition acyclic_tree (path : str) : Prop :=
    forall f, rtc includes path f -> ~ tc includes f f.
  Definition no_collision (path : str) : Prop :=
    forall nss1 via1 f1 m1 t1 nss2 via2 f2 m2 t2,
      origin path nss1 via1 f1 m1 t1 -> origin path nss2 via2 f2 m2 t2 ->
      qualify nss1 m1 = qualify nss2 m2 -> nss1 = nss2 /\ m1 = m2.
End Tree.

(** The first value that is set. *)
Fixpoint first_set {A} (l : list (option A)) : option A :=
  match l with
  | [] => None
  | Some a :: _ => Some a
  | None :: r => first_set r
  end.

Definition nonempty (s : str) : option str := match s with [] => None | _ => Some s end.

(** A run item as it appears after being included through [nss]: only task
    references change ... *)
Inductive moved (nss : list str) : run_item -> run_item -> Prop :=
| moved_cmd c : moved nss (RCmd c) (RCmd c)
| moved_log l : moved nss (RLog l) (RLog l)
| moved_prompt p : moved nss (RPrompt p) (RPrompt p)
| moved_task ln n s o ps w :
    moved nss (RTask (TaskRun ln n s o ps w)) (RTask (TaskRun ln (qualify nss n) s o ps w))
| moved_par ln lb md lim col s s' o o' ps w items items' :
    Forall2 (moved nss) items items' ->
    (* ... except that a parallel block may lose its silent and output settings *)
    ((s' = s /\ o' = o) \/ (nss <> [] /\ s' = None /\ o' = None)) ->
    moved nss (RPar (ParOpts ln lb md lim col s o ps w) items) (RPar (ParOpts ln lb md lim col s' o' ps w) items').

(** The intended relation: nothing is lost. *)
Inductive moved_exactly (nss : list str) : run_item -> run_item -> Prop :=
| movex_cmd c : moved_exactly nss (RCmd c) (RCmd c)
| movex_log l : moved_exactly nss (RLog l) (RLog l)
| movex_prompt p : moved_exactly nss (RPrompt p) (RPrompt p)
| movex_task ln n s o ps w :
    moved_exactly nss (RTask (TaskRun ln n s o ps w)) (RTask (TaskRun ln (qualify nss n) s o ps w))
| movex_par o items items' :
    Forall2 (moved_exactly nss) items items' -> moved_exactly nss (RPar o items) (RPar o items').

(** No parallel block, at any depth, sets silent or output itself. *)
Inductive blocks_unset : run_item -> Prop :=
| unset_cmd c : blocks_unset (RCmd c)
| unset_log l : blocks_unset (RLog l)
| unset_prompt p : blocks_unset (RPrompt p)
| unset_task t : blocks_unset (RTask t)
| unset_par o items : q_silent o = None -> q_output o = None -> Forall blocks_unset items -> blocks_unset (RPar o items).

(** Names and references of an included task. *)
Record placed_names (nss : list str) (f m : str) (t0 t : task) : Prop := {
  pn_name : t_name t = qualify nss m;
  pn_source : t_source t = f;
  pn_kept : t_line t = t_line t0 /\ t_deps_line t = t_deps_line t0 /\ t_desc t = t_desc t0 /\ t_when t = t_when t0;
  pn_deps : t_deps t = map (qualify nss) (t_deps t0);
  pn_alias : t_alias t = match t_alias t0 with [] => [] | a => qualify nss a end;
  pn_aliases : t_aliases t = map (qualify nss) (t_aliases t0);
  pn_run : Forall2 (moved nss) (t_run t0) (t_run t) }.

(** Settings: the task's own first, then those of the files on the way, starting
    with the file that defines the task. *)
Record placed_settings (via : list schema) (t0 t : task) : Prop := {
  ps_vars : forall k, smap_get (t_vars t) !! k =
    first_set (smap_get (t_vars t0) !! k :: map (fun b => smap_get (f_vars b) !! k) via);
  ps_env : forall k, smap_get (t_env t) !! k =
    first_set (smap_get (t_env t0) !! k :: map (fun b => smap_get (f_env b) !! k) via);
  ps_silent : t_silent t = first_set (t_silent t0 :: map f_silent via);
  ps_output : t_output t = first_set (t_output t0 :: map f_output via);
  ps_dir : nonempty (t_dir t) = first_set (nonempty (t_dir t0) :: map (fun b => nonempty (f_dir b)) via) }.
