(** internal/parser/parser.go and internal/parser/include.go, function by
    function, on files that are already decoded.

    A file system maps absolute paths to what [os.ReadFile] and [unmarshalBabfile]
    (parser.go 58-88) yield: [None] for a file that does not decode. A path that
    is not in the map cannot be read. *)
From Verif Require Import Base Types_Model Valid_Model Path_Model StrOrder Cond_Model.

(** internal/babfile/babfile.go 8-16; an include is its path (babfile/include.go). *)
Record schema := Schema {
  f_vars : smap; f_env : smap; f_silent : option bool; f_output : option bool; f_dir : str;
  f_includes : gmap str str; f_tasks : taskmap }.

Notation fsys := (gmap str (option schema)).

(** parser.go 15-24. *)
Record presult := PResult {
  pr_path : str; pr_vars : smap; pr_env : smap; pr_silent : option bool; pr_output : option bool;
  pr_dir : str; pr_tasks : taskmap; pr_aliases : gmap str str }.

Inductive perr :=
| PFuel                                           (* not in the code; proved unreachable *)
| PEmptyPath
| PNotFound (path : str)
| PBadFile (path : str)
| PCircular (path : str) (chain : list str)
| PCollision (path name : str)
| PInclude (path ns : str) (cause : perr)
| PInvalid (errs : list verr).

(** Iteration orders of the three kinds of [range]s of one parse. An invocation of
    [parseFile] is identified by the namespaces that lead to it from the root. *)
Record oracle := Oracle {
  or_includes : list str -> gmap str str -> list str;
  or_tasks : list str -> taskmap -> list str;
  or_aliases : list str -> taskmap -> list str }.

(** [namespace + ":" + name]. *)
Definition prefixed (ns name : str) : str := ns ++ ":"%char :: name.

(** include.go 71-76. *)
Definition prefix_alias (alias ns : str) : str := match alias with [] => [] | _ => prefixed ns alias end.

(** include.go 78-87 and 89-98. *)
Definition prefix_all (l : list str) (ns : str) : list str := map (prefixed ns) l.

(** include.go 100-133: [Silent] and [Output] of a parallel block are not copied. *)
Fixpoint prefix_item (ns : str) (it : run_item) : run_item :=
  match it with
  | RTask r => RTask (TaskRun (r_line r) (prefixed ns (r_task r)) (r_silent r) (r_output r) (r_platforms r) (r_when r))
  | RPar o items =>
      RPar (ParOpts (q_line o) (q_labels o) (q_mode o) (q_limit o) (q_color o) None None (q_platforms o) (q_when o))
           (map (prefix_item ns) items)
  | RCmd c => RCmd c
  | RLog l => RLog l
  | RPrompt p => RPrompt p
  end.

(** include.go 32-66: the task put in the includer's map. *)
Definition include_task (ns : str) (r : presult) (name : str) (t : task) : task :=
  Task (prefixed ns name) (t_line t) (t_deps_line t) (t_source t) (t_desc t)
    (prefix_alias (t_alias t) ns) (prefix_all (t_aliases t) ns)
    (merge_maps (pr_vars r) (t_vars t)) (merge_maps (pr_env r) (t_env t))
    (match t_silent t with None => pr_silent r | s => s end)
    (match t_output t with None => pr_output r | s => s end)
    (match t_dir t with [] => pr_dir r | d => d end)
    (t_when t) (prefix_all (t_deps t) ns) (map (prefix_item ns) (t_run t)).

(** include.go 26-67: the loop over the included tasks. *)
Fixpoint add_tasks (ns incpath : str) (r : presult) (order : list str) (tm : taskmap) : res perr taskmap :=
  match order with
  | [] => Ok tm
  | name :: rest =>
      match pr_tasks r !! name with
      | None => add_tasks ns incpath r rest tm
      | Some t =>
          if tm_has tm (prefixed ns name) then Err (PCollision incpath (prefixed ns name))
          else add_tasks ns incpath r rest (<[prefixed ns name := include_task ns r name t]> tm)
      end
  end.

(** parser.go 128-136: base names of the visited files in alphabetical order, then
    the current one. *)
Definition chain_from_visited (visited : gset str) (current : str) : list str :=
  sort_strs (map base (elements visited)) ++ [base current].

(** include.go 12-16. *)
Definition include_path (basedir p : str) : str := clean (if is_abs p then p else join2 basedir p).

Section Parse.
  Context (fs : fsys) (orc : oracle).

  (** parser.go 91-95: own tasks with their name and source. *)
  Definition own_task (path name : str) (t : task) : task :=
    Task name (t_line t) (t_deps_line t) path (t_desc t) (t_alias t) (t_aliases t) (t_vars t) (t_env t)
      (t_silent t) (t_output t) (t_dir t) (t_when t) (t_deps t) (t_run t).
  Definition own_tasks (path : str) (bf : schema) : taskmap :=
    map_imap (fun name t => Some (own_task path name t)) (f_tasks bf).

  Section Includes.
    Context (parse : list str -> str -> res perr presult).

    (** include.go 11-69. *)
    Definition resolve_include (nsp : list str) (ns p basedir : str) (tm : taskmap) : res perr taskmap :=
      let incpath := include_path basedir p in
      match parse (nsp ++ [ns]) incpath with
      | Err e => Err e
      | Ok r => add_tasks ns incpath r (or_tasks orc (nsp ++ [ns]) (pr_tasks r)) tm
      end.

    (** parser.go 98-102. *)
    Fixpoint include_loop (nsp : list str) (path : str) (incs : gmap str str) (order : list str) (tm : taskmap)
        : res perr taskmap :=
      match order with
      | [] => Ok tm
      | ns :: rest =>
          match incs !! ns with
          | None => include_loop nsp path incs rest tm
          | Some p =>
              match resolve_include nsp ns p (dir path) tm with
              | Err e => Err (PInclude path ns e)
              | Ok tm' => include_loop nsp path incs rest tm'
              end
          end
      end.
  End Includes.

  (** parser.go 49-114. [visited] is the shared map: an entry is added on entry
      and deleted on return (lines 56-57), i.e. it is the set of open files. *)
  Fixpoint parse_file (fuel : nat) (visited : gset str) (nsp : list str) (path : str) : res perr presult :=
    match fuel with
    | 0 => Err PFuel
    | S fuel' =>
        if decide (path ∈ visited) then Err (PCircular path (chain_from_visited visited path))
        else
          match fs !! path with
          | None => Err (PNotFound path)
          | Some None => Err (PBadFile path)
          | Some (Some bf) =>
              match include_loop (parse_file fuel' ({[path]} ∪ visited)) nsp path (f_includes bf)
                      (or_includes orc nsp (f_includes bf)) (own_tasks path bf) with
              | Err e => Err e
              | Ok tm =>
                  Ok (PResult path (f_vars bf) (f_env bf) (f_silent bf) (f_output bf) (f_dir bf) tm
                        (build_alias_map tm (or_aliases orc nsp tm)))
              end
          end
    end.

  (** parser.go 26-47; [cwd] is the current directory. The fuel is shown to be enough. *)
  Definition parse (grow : nat -> nat) (vorc : taskmap -> vorders) (cwd path : str) : res perr presult :=
    match trim_space path with
    | [] => Err PEmptyPath
    | _ =>
        match parse_file (2 + size fs) ∅ [] (abs_path cwd (clean path)) with
        | Err e => Err e
        | Ok r =>
            match validate_all grow (pr_tasks r) (vorc (pr_tasks r)) with
            | [] => Ok r
            | es => Err (PInvalid es)
            end
        end
    end.
End Parse.
