(** What the command line promises, written without the functions of Cli_Model; of
    that file only the types of the tree printed, of errors and of calls are used. *)
From Verif Require Import Base StrOrder Types_Model Valid_Model Path_Model Path_Proof Include_Model Run_Model Cli_Model.

(** ** Which Babfile: directories are lists of names, innermost first, so an ancestor
    is a suffix. *)

(** docs/content/guide/babfile-syntax.md line 3, then the lower-case spellings. *)
Definition documented_names : list str :=
  [lit "Babfile"; lit "Babfile.yaml"; lit "Babfile.yml"; lit "babfile.yaml"; lit "babfile.yml"].

(** [d] or a directory above it. *)
Definition above (d' d : list str) : Prop := exists down, d = down ++ d'.
(** [stat] finds none of the names in [d]. *)
Definition no_babfile_in (stat : str -> bool) (d : list str) : Prop :=
  forall n, n ∈ documented_names -> stat (spelled (n :: d)) = false.

(** [p] is the Babfile of [d]: in the nearest directory with one, under the first of
    the names. *)
Definition nearest (stat : str -> bool) (d : list str) (p : str) : Prop :=
  exists d' before n after,
    above d' d /\ documented_names = before ++ n :: after /\ p = spelled (n :: d') /\ stat p = true /\
    (forall m, m ∈ before -> stat (spelled (m :: d')) = false) /\
    (forall d'', above d'' d -> above d' d'' -> d'' <> d' -> no_babfile_in stat d'').

(** ** Suggestions *)

(** Number of positions at which two texts have the same byte. *)
Definition agreeing (a b : str) : nat :=
  length (List.filter (fun i => bool_decide (is_Some (a !! i) /\ a !! i = b !! i)) (seq 0 (length a))).

Definition inside (a b : str) : Prop := exists x y, b = x ++ a ++ y.

(** How similar two texts are, out of 100. *)
Inductive alike (a b : str) : nat -> Prop :=
| alike_same : a = b -> alike a b 100
| alike_part : a <> b -> inside a b \/ inside b a -> alike a b 80
| alike_else : ~ inside a b -> ~ inside b a -> alike a b (agreeing a b * 100 / Nat.max (length a) (length b)).

(** [c] is the best candidate. *)
Definition best_of (lower : str -> str) (target : str) (cands : list str) (c : str) : Prop :=
  c ∈ cands /\ exists k, alike (lower target) (lower c) k /\ 50 <= k /\
  forall d j, d ∈ cands -> alike (lower target) (lower d) j ->
    j <= k /\ (j = k -> length c <= length d /\ (length d = length c -> str_le c d)).

(** ** Completion *)

Definition starts_with (p s : str) : Prop := exists r, s = p ++ r.
(** The first field of an entry, up to the tab that starts its description. *)
Definition offers (entry name : str) : Prop := entry = name \/ exists help, entry = name ++ "009"%char :: help.

(** The line offered for a task and for an alias of a task described [desc]. *)
Definition task_line (name desc entry : str) : Prop :=
  (desc = [] /\ entry = name) \/ (desc <> [] /\ entry = name ++ "009"%char :: desc).
Definition alias_line (alias name desc entry : str) : Prop :=
  (desc = [] /\ entry = alias ++ "009"%char :: lit "alias for " ++ name) \/
  (desc <> [] /\ entry = alias ++ "009"%char :: desc ++ lit " (alias)").
(** The description of the task called [name], if there is one. *)
Definition description (tasks : taskmap) (name : str) : str := match tasks !! name with Some t => t_desc t | None => [] end.

(** ** The tree: the part of a name up to some colon *)

Definition colon_path (name : str) (path : list str) : Prop :=
  path <> [] /\ name = join_with [":"%char] path /\ Forall (fun w => ":"%char ∉ w) path.
Definition on_the_way (path full : list str) : Prop := path <> [] /\ exists rest, full = path ++ rest.


(** All lines of the output from top to bottom: the names from the top level down to
    the line, and the aliases and description on it. *)
Fixpoint lines_of (s : shown) : list (list str * (list str * str)) :=
  match s with
  | Shown n a d below =>
      ([n], (a, d)) :: map (fun r => (n :: fst r, snd r)) ((fix go l := match l with [] => [] | x :: l' => lines_of x ++ go l' end) below)
  end.
Definition lines (l : list shown) : list (list str * (list str * str)) := concat (map lines_of l).

Definition label (s : shown) : str := match s with Shown n _ _ _ => n end.
Definition below (s : shown) : list shown := match s with Shown _ _ _ l => l end.
(** At every level the names are in alphabetical order. *)
Inductive alphabetical : list shown -> Prop :=
| alphabetical_intro l : StronglySorted str_le (map label l) -> NoDup (map label l) ->
    (forall x, x ∈ l -> alphabetical (below x)) -> alphabetical l.

(** ** Errors: the errors an error is made of *)

Inductive part_of : gerr -> gerr -> Prop :=
| part_self e : part_of e e
| part_wrap e c m k : part_of e k -> part_of e (EWrap c m (Some k))
| part_list e k l : k ∈ l -> part_of e k -> part_of e (EValidation l).

(** No [Is] method in the error says that it is the cancellation. In the code: the
    methods of internal/errs/parse.go 28-139 and interpolate.go 39-78 compare with
    their own sentinels. *)
Definition own_claims_only (e : gerr) : Prop :=
  forall c m k, part_of (EWrap c m k) e -> c Canceled = false.
Definition cancelled (e : gerr) : Prop := exists m, part_of (ESentinel Canceled m) e.

(** The list of problems an error carries, at whatever depth it is wrapped. *)
Inductive carries : gerr -> list gerr -> Prop :=
| carries_list l : carries (EValidation l) l
| carries_wrap c m k l : carries k l -> carries (EWrap c m (Some k)) l.
(** What an error says: its message; for a list of problems what each says, one
    below the other. *)
Inductive says : gerr -> str -> Prop :=
| says_sentinel s m : says (ESentinel s m) m
| says_wrap c m k : says (EWrap c m k) m
| says_list l m : all_say l m -> says (EValidation l) m
with all_say : list gerr -> str -> Prop :=
| all_say_none : all_say [] []
| all_say_one e m : says e m -> all_say [e] m
| all_say_more e m e' l m' : says e m -> all_say (e' :: l) m' -> all_say (e :: e' :: l) (m ++ ascii_of_nat 10 :: m').

(** What failed in the end, below the dependencies and parallel items it failed for. *)
Fixpoint bottom (e : rerr) : rerr := match e with RDep _ k | RPreDep _ k | RItem _ k => bottom k | _ => e end.

(** ** Modes *)

Inductive mode := MCompletion | MValidate | MList | MRun (name : str) | MInteractive.
(** The documented precedence. *)
Inductive chosen : flags -> list str -> mode -> Prop :=
| chosen_completion f args : g_completion f <> [] -> chosen f args MCompletion
| chosen_validate f args : g_completion f = [] -> g_validate f = true -> chosen f args MValidate
| chosen_list f args : g_completion f = [] -> g_validate f = false -> g_list f = true -> chosen f args MList
| chosen_run f n rest : g_completion f = [] -> g_validate f = false -> g_list f = false -> chosen f (n :: rest) (MRun n)
| chosen_pick f : g_completion f = [] -> g_validate f = false -> g_list f = false -> chosen f [] MInteractive.
