(** The command line: which Babfile is used, which mode runs, what completion and
    listing show, which suggestion is made, and the exit status. *)
From Verif Require Import Base StrOrder Types_Model Valid_Model Path_Model Include_Model Run_Model.

(** ** internal/finder/finder.go *)

(** finder.go 12-18. *)
Definition babfile_names : list str :=
  map lit ["Babfile"; "Babfile.yaml"; "Babfile.yml"; "babfile.yaml"; "babfile.yml"]%string.

(** finder.go 28-34: the first name that [os.Stat] accepts. [stat] says for a path
    whether it does. *)
Fixpoint try_names (stat : str -> bool) (d : str) (names : list str) : option str :=
  match names with
  | [] => None
  | n :: rest => if stat (join2 d n) then Some (join2 d n) else try_names stat d rest
  end.

Inductive found := Found (path : str) | NotFound | OutOfFuel.

(** finder.go 27-41. The loop of the code has no counter; [OutOfFuel] is not in the
    code and is proved not to be reached from [find_babfile]. *)
Fixpoint find_loop (fuel : nat) (stat : str -> bool) (d : str) : found :=
  match fuel with
  | 0 => OutOfFuel
  | S fuel =>
      match try_names stat d babfile_names with
      | Some p => Found p
      | None => if decide (dir d = d) then NotFound else find_loop fuel stat (dir d)
      end
  end.

(** finder.go 20-45; [cwd] is what [os.Getwd] returned. *)
Definition find_babfile (stat : str -> bool) (cwd : str) : found := find_loop (3 + length cwd) stat cwd.

(** ** internal/errs/suggest.go *)

(** [strings.Contains(s, p)]. *)
Fixpoint has_part (p s : str) : bool :=
  has_prefix p s || match s with [] => false | _ :: s' => has_part p s' end.

(** suggest.go 38-43. *)
Fixpoint matches (a b : str) : nat :=
  match a, b with
  | c :: a', d :: b' => (if decide (c = d) then 1 else 0) + matches a' b'
  | _, _ => 0
  end.

(** suggest.go 31-49. *)
Definition similarity (a b : str) : nat :=
  if decide (a = b) then 100
  else if has_part a b || has_part b a then 80
  else match a, b with
       | [], _ | _, [] => 0
       | _, _ => matches a b * 100 / Nat.max (length a) (length b)
       end.

(** suggest.go 21-27: one candidate. [lower] is [strings.ToLower]. *)
Definition suggest_step (lower : str -> str) (target : str) (st : str * nat) (c : str) : str * nat :=
  let '(best, best_score) := st in
  let score := similarity target (lower c) in
  if bool_decide (50 <= score) && (bool_decide (best_score < score) ||
       bool_decide (score = best_score) && bool_decide (length c < length best))
  then (c, score) else st.

(** suggest.go 8-29. *)
Definition find_similar (lower : str -> str) (target : str) (candidates : list str) : str :=
  match candidates with
  | [] => []
  | _ => fst (fold_left (suggest_step lower (lower target)) (sort_strs candidates) ([], 0))
  end.

(** ** cmd/complete.go *)

Definition nl : ascii := "010"%char.
Definition tab : ascii := "009"%char.

(** complete.go 23-33: the entry of a task. *)
Definition task_entry (name : str) (t : task) : str :=
  match t_desc t with [] => name | d => name ++ tab :: d end.
(** complete.go 35-45: the entry of an alias. *)
Definition alias_entry (tasks : taskmap) (alias name : str) : str :=
  match tasks !! name with
  | Some t => match t_desc t with [] => alias ++ tab :: lit "alias for " ++ name | d => alias ++ tab :: d ++ lit " (alias)" end
  | None => alias ++ tab :: lit "alias for " ++ name
  end.
(** complete.go 11-50: [args] are the arguments before the one being typed, [result]
    what [LoadTasks] gave ([None] for an error), the orders those of the two loops. *)
Definition complete_names (result : option presult) (args : list str) (typed : str) (torder aorder : list str) : list str :=
  match args with
  | _ :: _ => []
  | [] =>
      match result with
      | None => []
      | Some r =>
          sort_strs
            (omap (fun n => match pr_tasks r !! n with
                            | Some t => if has_prefix typed n then Some (task_entry n t) else None
                            | None => None end) torder ++
             omap (fun a => match pr_aliases r !! a with
                            | Some n => if has_prefix typed a then Some (alias_entry (pr_tasks r) a n) else None
                            | None => None end) aorder)
      end
  end.

(** ** cmd/list.go *)

(** list.go 15-19. The children are a Go map; the list keeps its entries. *)
Inductive node := Node (desc : str) (aliases : list str) (children : list (str * node)).
Definition children (n : node) : list (str * node) := match n with Node _ _ l => l end.
Definition fresh_node : node := Node [] [] [].

(** [m\[k\]] and [m\[k\] = v]. *)
Fixpoint kid {A} (k : str) (l : list (str * A)) : option A :=
  match l with
  | [] => None
  | (k', n) :: l' => if decide (k = k') then Some n else kid k l'
  end.
Fixpoint set_kid {A} (k : str) (n : A) (l : list (str * A)) : list (str * A) :=
  match l with
  | [] => [(k, n)]
  | (k', n') :: l' => if decide (k = k') then (k, n) :: l' else (k', n') :: set_kid k n l'
  end.

(** list.go 33-46: walk down the parts of a name, making the nodes that are missing,
    and set description and aliases on the last one. *)
Fixpoint add_node (parts : list str) (t : task) (n : node) : node :=
  match n with
  | Node d a l =>
      match parts with
      | [] => n
      | p :: rest =>
          let c := match kid p l with Some c => c | None => fresh_node end in
          let c := match rest with
                   | [] => Node (t_desc t) (get_all_aliases t) (children c)
                   | _ => add_node rest t c
                   end in
          Node d a (set_kid p c l)
      end
  end.

(** list.go 31-46. *)
Definition build_root (tasks : taskmap) (order : list str) : node :=
  fold_left (fun n name => match tasks !! name with Some t => add_node (split_on ":"%char name) t n | None => n end)
    order fresh_node.

(** What is printed: for every node its name, aliases and description, and below it
    the nodes under it in the order they are printed. *)
Inductive shown := Shown (name : str) (aliases : list str) (desc : str) (below : list shown).

(** list.go 75-82 and the two loops over the result: the names in order, each looked
    up. *)
Definition in_order {A} (l : list (str * A)) : list A := omap (fun k => kid k l) (sort_strs (map fst l)).

(** list.go 54-67. The styling of the label is left out. *)
Fixpoint build_tree (name : str) (n : node) : shown :=
  match n with
  | Node d a l => Shown name a d (in_order (map (fun kc => (fst kc, build_tree (fst kc) (snd kc))) l))
  end.

(** list.go 21-73: [None] when there are no tasks (a warning is logged instead). *)
Definition run_list (tasks : taskmap) (order : list str) : option (list shown) :=
  if decide (tasks = ∅) then None
  else Some (in_order (map (fun kc => (fst kc, build_tree (fst kc) (snd kc))) (children (build_root tasks order)))).

(** ** Errors: main.go and the library's errors package *)

(** Identities of error values made once ([errors.New]): [Canceled] is
    [context.Canceled], the others are those of internal/errs/errs.go 8-27 or any
    other sentinel. *)
Inductive sentinel := Canceled | OtherSentinel (n : nat).
#[global] Instance sentinel_eq : EqDecision sentinel.
Proof. solve_decision. Defined.

(** A Go error as [errors.Is] and [errors.As] see it: a sentinel, an error whose
    [Unwrap() error] gives another one or nothing ([fmt.Errorf] with %w, [ParseError],
    the error types of internal/errs without a cause), or [ValidationErrors]
    (errs.go 29-58). [claims] is what its [Is] method answers. *)
Inductive gerr :=
| ESentinel (s : sentinel) (msg : str)
| EWrap (claims : sentinel -> bool) (msg : str) (cause : option gerr)
| EValidation (errs : list gerr).

(** [errors.Is(e, target)]. *)
Fixpoint errors_is (target : sentinel) (e : gerr) : bool :=
  match e with
  | ESentinel s _ => bool_decide (s = target)
  | EWrap claims _ cause => claims target || match cause with Some c => errors_is target c | None => false end
  | EValidation l => existsb (errors_is target) l
  end.

(** errs.go 33-39 for [EValidation]. *)
Fixpoint error_text (e : gerr) : str :=
  match e with
  | ESentinel _ m | EWrap _ m _ => m
  | EValidation l => join_with [nl] (map error_text l)
  end.

(** [errors.As(e, &verrs)]: the first [ValidationErrors] on the way down. *)
Fixpoint as_validation (e : gerr) : option (list gerr) :=
  match e with
  | ESentinel _ _ | EWrap _ _ None => None
  | EWrap _ _ (Some c) => as_validation c
  | EValidation l => Some l
  end.

(** main.go 56-68: the lines logged. *)
Definition handle_error (e : gerr) : list str :=
  match as_validation e with
  | Some l => map error_text l
  | None => match error_text e with [] => [] | m => [m] end
  end.

(** main.go 29-54: exit status and what is logged about the error. *)
Definition main_run (result : option gerr) : nat * list str :=
  match result with
  | None => (0, [])
  | Some e => if errors_is Canceled e then (0, []) else (1, handle_error e)
  end.

(** The error of a run as a Go error. What surrounds an error with another keeps it
    (%w): runner.go 190, parallel.go 158, 267 and 353. runner.go 226 and parallel.go
    242 give the cancellation; [leaf] is the rest, [msg] the texts. *)
Fixpoint run_error (msg : rerr -> str) (leaf : rerr -> gerr) (e : rerr) : gerr :=
  match e with
  | RCancelled => EWrap (fun _ => false) (msg e) (Some (ESentinel Canceled (lit "context canceled")))
  | RDep _ k | RPreDep _ k | RItem _ k => EWrap (fun _ => false) (msg e) (Some (run_error msg leaf k))
  | _ => leaf e
  end.

(** ** cmd/root.go *)

(** root.go 26-34, the flags. *)
Record flags := Flags { g_dry : bool; g_list : bool; g_validate : bool; g_completion : str; g_babfile : str }.

(** What the command asks of the rest of the program. *)
Inductive call :=
| CScript (shell : str)                       (* write the completion script *)
| CLoad (babfile : str)                       (* runner.LoadTasks *)
| CPick                                       (* tui.PickTask *)
| CShow                                       (* print the tree, or that the Babfile is valid *)
| CRun (dry : bool) (babfile name : str).     (* runner.New(dry, babfile).Run(name) *)

(** What the rest of the program answers: whether loading gives an error, what the
    picker returns, what the run returns. *)
Record answers := Answers {
  an_load : option gerr; an_pick : gerr + option str; an_run : str -> option gerr; an_script : option gerr;
  an_shell : str -> gerr }.

Definition shells : list str := map lit ["bash"; "zsh"; "fish"; "powershell"]%string.

(** completion.go 10-23, validate.go 8-15, list.go 21-29, interactive.go 9-29,
    root.go 107-110: calls in order and the error returned. *)
Definition run_completion (an : answers) (sh : str) : list call * option gerr :=
  if decide (sh ∈ shells) then ([CScript sh], an_script an) else ([], Some (an_shell an sh)).
Definition run_load_show (an : answers) (f : flags) : list call * option gerr :=
  match an_load an with
  | Some e => ([CLoad (g_babfile f)], Some e)
  | None => ([CLoad (g_babfile f); CShow], None)
  end.
Definition run_named (an : answers) (f : flags) (name : str) : list call * option gerr :=
  ([CRun (g_dry f) (g_babfile f) name], an_run an name).
Definition run_interactive (an : answers) (f : flags) : list call * option gerr :=
  match an_load an with
  | Some e => ([CLoad (g_babfile f)], Some e)
  | None =>
      match an_pick an with
      | inl e => ([CLoad (g_babfile f); CPick], Some e)
      | inr None => ([CLoad (g_babfile f); CPick], None)
      | inr (Some name) => let '(cs, e) := run_named an f name in (CLoad (g_babfile f) :: CPick :: cs, e)
      end
  end.

(** root.go 91-105. *)
Definition cli_run (an : answers) (f : flags) (args : list str) : list call * option gerr :=
  match g_completion f with
  | _ :: _ => run_completion an (g_completion f)
  | [] =>
      if g_validate f then run_load_show an f
      else if g_list f then run_load_show an f
      else match args with
           | name :: _ => run_named an f name
           | [] => run_interactive an f
           end
  end.
