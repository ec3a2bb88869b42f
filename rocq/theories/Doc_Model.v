(** internal/parser/unmarshal.go, function by function: from the tree that
    gopkg.in/yaml.v3 builds out of the bytes of a file to the Babfile.

    The library is abstract: [Yaml] (below) gives for the bytes of a file the tree,
    and for a node what [Node.Decode] makes of it for each type the code asks for.

    All functions of the file append to one list of errors [verrs]; here each
    returns the errors it appends, in order. The path, constant during one call of
    [unmarshalBabfile], is left out of the errors. *)
From Verif Require Import Base Types_Model Include_Model.

(** yaml.Node as yaml.v3 builds it: the kind, the line, the value (of a scalar:
    its text; of an alias: the name of the anchor), the content. The content of a
    mapping is a list of keys and values in turn, here a list of pairs. An alias
    keeps the node it stands for. Simplified: an anchor inside its own value
    (rejected by [Decode], never looked at otherwise) is not represented. Document
    nodes only occur at the root, see [ydoc]. *)
Inductive node :=
| YScalar (line : nat) (tag value : str)
| YSeq (line : nat) (content : list node)
| YMap (line : nat) (content : list (node * node))
| YAlias (line : nat) (anchor : str) (target : node).

(** [Node.Line] and [Node.Value]. *)
Definition line_of (n : node) : nat :=
  match n with YScalar l _ _ => l | YSeq l _ => l | YMap l _ => l | YAlias l _ _ => l end.
Definition value_of (n : node) : str :=
  match n with YScalar _ _ v => v | YSeq _ _ => [] | YMap _ _ => [] | YAlias _ a _ => a end.

(** What [yaml.Unmarshal(data, &root)] leaves in [root] (lines 141-148): an error,
    no document, or a document with its only child. *)
Inductive ydoc := YSyntax | YEmpty | YDoc (n : node).

(** The library functions the code calls. [Decode] into a slice of strings (also
    [[]Platform]), a bool, an int and an [Include]; [None] is an error. What a failed
    [Decode] leaves behind is never read, since an error has been recorded. *)
Record yaml := Yaml {
  y_parse : str -> ydoc;
  y_strs : node -> option (list str);
  y_bool : node -> option bool;
  y_int : node -> option Z;
  y_include : node -> option str;
  y_regexp : str -> bool      (* [regexp.Compile] gives no error *) }.

(** The errors: what the messages of the file say. *)
Inductive ierror :=
| INotMap | ITwoKinds | INoKind | IDir | IPlatforms | IPlatform (p : str) | ILevel (l : str)
| IOptions | IDefaults | IMin | IMax
| IParSeq | IModeStr | IMode (m : str) | ILimit | ILimitNeg | IUnknownKey (k : str)
| IParEmpty | IParPrompt | IParNested
| IName (n : str) | INoType | IType (t : str) | INoMessage | INoOptions (t : str) | INotInOptions (d : str)
| IMinMax (lo hi : Z) | IRegexp | IOptionsFor | IDefaultsFor | IValidateFor | IConfirmFor | INotInteger (d : str).
Inductive derror :=
| DNotMap                                     (* expected mapping at root *)
| DVarsMap | DVarsValue (key : str) | DEnvMap | DEnvValue (key : str) | DBool | DDir
| DTasksMap | DIncludesMap | DInclude (ns : str)
| DDuplicate (name : str) (original : nat)    (* errs.DuplicateTaskError *)
| DTaskMap (task : str) | DAliases (task : str) | DTaskDir (task : str) | DDeps (task : str) | DRunSeq (task : str)
| DItem (task : str) (index : nat) (e : ierror).   (* task %q: run[%d]: ... *)
(** An error with its line. *)
Notation derr := (nat * derror)%type.

(** Keys, lines 13-48: a switch on [key.Value]. *)
Definition is (s : str) (k : string) : bool := bool_decide (s = lit k).

(** babfile/platform.go 17-24, run_log.go 20-27, run_parallel.go 20-27, run_prompt.go 28-35. *)
Definition valid_platform (s : str) : bool := bool_decide (s ∈ map lit ["linux"; "darwin"; "windows"]%string).
Definition valid_level (s : str) : bool := bool_decide (s ∈ map lit ["debug"; "info"; "warn"; "error"]%string).
Definition valid_mode (s : str) : bool := bool_decide (s ∈ map lit ["interleaved"; "grouped"; "tabs"]%string).
Definition valid_prompt_type (s : str) : bool :=
  bool_decide (s ∈ map lit ["confirm"; "input"; "select"; "multiselect"; "password"; "number"]%string).
(** run_prompt.go 41-43. *)
Definition requires_options (s : str) : bool := is s "select" || is s "multiselect".

(** variable.go 5: [^[a-zA-Z_][a-zA-Z0-9_]*$]. *)
Definition word_start (c : ascii) : bool :=
  let n := code c in ((97 <=? n) && (n <=? 122)) || ((65 <=? n) && (n <=? 90)) || (n =? 95).
Definition word_char (c : ascii) : bool := word_start c || ((48 <=? code c) && (code c <=? 57)).
Definition var_name (s : str) : bool :=
  match s with [] => false | c :: r => word_start c && forallb word_char r end.

(** [strconv.Atoi] on a 64-bit platform: an optional sign, at least one digit,
    nothing else, and the result fits. *)
Definition digit (c : ascii) : option Z :=
  let n := code c in if (48 <=? n) && (n <=? 57) then Some (Z.of_nat (n - 48)) else None.
Fixpoint digits (acc : Z) (s : str) : option Z :=
  match s with
  | [] => Some acc
  | c :: r => match digit c with None => None | Some d => digits (acc * 10 + d)%Z r end
  end.
Definition in_int64 (z : Z) : bool := ((- 2 ^ 63 <=? z) && (z <? 2 ^ 63))%Z.
Definition atoi (s : str) : option Z :=
  let '(neg, ds) := match s with
                    | "-"%char :: r => (true, r)
                    | "+"%char :: r => (false, r)
                    | _ => (false, s)
                    end in
  match ds with
  | [] => None
  | _ => match digits 0 ds with
         | None => None
         | Some z => let z' := if neg : bool then (- z)%Z else z in if in_int64 z' then Some z' else None
         end
  end.

(** Lines 50-62. *)
Record pfields := PFields {
  pf_name : str; pf_type : str; pf_message : str; pf_dflt : str; pf_placeholder : str; pf_validate : str; pf_options : list str; pf_defaults : list str; pf_min : option Z; pf_max : option Z; pf_confirm : option bool }.
Definition set_pf_name (v : str) (x : pfields) : pfields := PFields v (pf_type x) (pf_message x) (pf_dflt x) (pf_placeholder x) (pf_validate x) (pf_options x) (pf_defaults x) (pf_min x) (pf_max x) (pf_confirm x).
Definition set_pf_type (v : str) (x : pfields) : pfields := PFields (pf_name x) v (pf_message x) (pf_dflt x) (pf_placeholder x) (pf_validate x) (pf_options x) (pf_defaults x) (pf_min x) (pf_max x) (pf_confirm x).
Definition set_pf_message (v : str) (x : pfields) : pfields := PFields (pf_name x) (pf_type x) v (pf_dflt x) (pf_placeholder x) (pf_validate x) (pf_options x) (pf_defaults x) (pf_min x) (pf_max x) (pf_confirm x).
Definition set_pf_dflt (v : str) (x : pfields) : pfields := PFields (pf_name x) (pf_type x) (pf_message x) v (pf_placeholder x) (pf_validate x) (pf_options x) (pf_defaults x) (pf_min x) (pf_max x) (pf_confirm x).
Definition set_pf_placeholder (v : str) (x : pfields) : pfields := PFields (pf_name x) (pf_type x) (pf_message x) (pf_dflt x) v (pf_validate x) (pf_options x) (pf_defaults x) (pf_min x) (pf_max x) (pf_confirm x).
Definition set_pf_validate (v : str) (x : pfields) : pfields := PFields (pf_name x) (pf_type x) (pf_message x) (pf_dflt x) (pf_placeholder x) v (pf_options x) (pf_defaults x) (pf_min x) (pf_max x) (pf_confirm x).
Definition set_pf_options (v : list str) (x : pfields) : pfields := PFields (pf_name x) (pf_type x) (pf_message x) (pf_dflt x) (pf_placeholder x) (pf_validate x) v (pf_defaults x) (pf_min x) (pf_max x) (pf_confirm x).
Definition set_pf_defaults (v : list str) (x : pfields) : pfields := PFields (pf_name x) (pf_type x) (pf_message x) (pf_dflt x) (pf_placeholder x) (pf_validate x) (pf_options x) v (pf_min x) (pf_max x) (pf_confirm x).
Definition set_pf_min (v : option Z) (x : pfields) : pfields := PFields (pf_name x) (pf_type x) (pf_message x) (pf_dflt x) (pf_placeholder x) (pf_validate x) (pf_options x) (pf_defaults x) v (pf_max x) (pf_confirm x).
Definition set_pf_max (v : option Z) (x : pfields) : pfields := PFields (pf_name x) (pf_type x) (pf_message x) (pf_dflt x) (pf_placeholder x) (pf_validate x) (pf_options x) (pf_defaults x) (pf_min x) v (pf_confirm x).
Definition set_pf_confirm (v : option bool) (x : pfields) : pfields := PFields (pf_name x) (pf_type x) (pf_message x) (pf_dflt x) (pf_placeholder x) (pf_validate x) (pf_options x) (pf_defaults x) (pf_min x) (pf_max x) v.
Definition no_pf : pfields := PFields [] [] [] [] [] [] [] [] None None None.

(** Lines 418-427; [line] is that of the node. *)
Record rfields := RFields {
  rf_cmd : str; rf_task : str; rf_log : str; rf_dir : str; rf_when : str; rf_env : smap; rf_platforms : list str; rf_level : str; rf_silent : option bool; rf_output : option bool; rf_bad : bool; rf_pf : pfields }.
Definition set_rf_cmd (v : str) (x : rfields) : rfields := RFields v (rf_task x) (rf_log x) (rf_dir x) (rf_when x) (rf_env x) (rf_platforms x) (rf_level x) (rf_silent x) (rf_output x) (rf_bad x) (rf_pf x).
Definition set_rf_task (v : str) (x : rfields) : rfields := RFields (rf_cmd x) v (rf_log x) (rf_dir x) (rf_when x) (rf_env x) (rf_platforms x) (rf_level x) (rf_silent x) (rf_output x) (rf_bad x) (rf_pf x).
Definition set_rf_log (v : str) (x : rfields) : rfields := RFields (rf_cmd x) (rf_task x) v (rf_dir x) (rf_when x) (rf_env x) (rf_platforms x) (rf_level x) (rf_silent x) (rf_output x) (rf_bad x) (rf_pf x).
Definition set_rf_dir (v : str) (x : rfields) : rfields := RFields (rf_cmd x) (rf_task x) (rf_log x) v (rf_when x) (rf_env x) (rf_platforms x) (rf_level x) (rf_silent x) (rf_output x) (rf_bad x) (rf_pf x).
Definition set_rf_when (v : str) (x : rfields) : rfields := RFields (rf_cmd x) (rf_task x) (rf_log x) (rf_dir x) v (rf_env x) (rf_platforms x) (rf_level x) (rf_silent x) (rf_output x) (rf_bad x) (rf_pf x).
Definition set_rf_env (v : smap) (x : rfields) : rfields := RFields (rf_cmd x) (rf_task x) (rf_log x) (rf_dir x) (rf_when x) v (rf_platforms x) (rf_level x) (rf_silent x) (rf_output x) (rf_bad x) (rf_pf x).
Definition set_rf_platforms (v : list str) (x : rfields) : rfields := RFields (rf_cmd x) (rf_task x) (rf_log x) (rf_dir x) (rf_when x) (rf_env x) v (rf_level x) (rf_silent x) (rf_output x) (rf_bad x) (rf_pf x).
Definition set_rf_level (v : str) (x : rfields) : rfields := RFields (rf_cmd x) (rf_task x) (rf_log x) (rf_dir x) (rf_when x) (rf_env x) (rf_platforms x) v (rf_silent x) (rf_output x) (rf_bad x) (rf_pf x).
Definition set_rf_silent (v : option bool) (x : rfields) : rfields := RFields (rf_cmd x) (rf_task x) (rf_log x) (rf_dir x) (rf_when x) (rf_env x) (rf_platforms x) (rf_level x) v (rf_output x) (rf_bad x) (rf_pf x).
Definition set_rf_output (v : option bool) (x : rfields) : rfields := RFields (rf_cmd x) (rf_task x) (rf_log x) (rf_dir x) (rf_when x) (rf_env x) (rf_platforms x) (rf_level x) (rf_silent x) v (rf_bad x) (rf_pf x).
Definition set_rf_bad (v : bool) (x : rfields) : rfields := RFields (rf_cmd x) (rf_task x) (rf_log x) (rf_dir x) (rf_when x) (rf_env x) (rf_platforms x) (rf_level x) (rf_silent x) (rf_output x) v (rf_pf x).
Definition set_rf_pf (v : pfields) (x : rfields) : rfields := RFields (rf_cmd x) (rf_task x) (rf_log x) (rf_dir x) (rf_when x) (rf_env x) (rf_platforms x) (rf_level x) (rf_silent x) (rf_output x) (rf_bad x) v.
Definition no_rf : rfields := RFields [] [] [] [] [] None [] [] None None false no_pf.

(** Lines 483-492; [itemsNode] is the line and the content of the sequence. *)
Record qfields := QFields {
  qf_items : option (nat * list node); qf_mode : str; qf_limit : Z; qf_color : option bool; qf_silent : option bool; qf_output : option bool; qf_platforms : list str; qf_when : str }.
Definition set_qf_items (v : option (nat * list node)) (x : qfields) : qfields := QFields v (qf_mode x) (qf_limit x) (qf_color x) (qf_silent x) (qf_output x) (qf_platforms x) (qf_when x).
Definition set_qf_mode (v : str) (x : qfields) : qfields := QFields (qf_items x) v (qf_limit x) (qf_color x) (qf_silent x) (qf_output x) (qf_platforms x) (qf_when x).
Definition set_qf_limit (v : Z) (x : qfields) : qfields := QFields (qf_items x) (qf_mode x) v (qf_color x) (qf_silent x) (qf_output x) (qf_platforms x) (qf_when x).
Definition set_qf_color (v : option bool) (x : qfields) : qfields := QFields (qf_items x) (qf_mode x) (qf_limit x) v (qf_silent x) (qf_output x) (qf_platforms x) (qf_when x).
Definition set_qf_silent (v : option bool) (x : qfields) : qfields := QFields (qf_items x) (qf_mode x) (qf_limit x) (qf_color x) v (qf_output x) (qf_platforms x) (qf_when x).
Definition set_qf_output (v : option bool) (x : qfields) : qfields := QFields (qf_items x) (qf_mode x) (qf_limit x) (qf_color x) (qf_silent x) v (qf_platforms x) (qf_when x).
Definition set_qf_platforms (v : list str) (x : qfields) : qfields := QFields (qf_items x) (qf_mode x) (qf_limit x) (qf_color x) (qf_silent x) (qf_output x) v (qf_when x).
Definition set_qf_when (v : str) (x : qfields) : qfields := QFields (qf_items x) (qf_mode x) (qf_limit x) (qf_color x) (qf_silent x) (qf_output x) (qf_platforms x) v.
Definition no_qf : qfields := QFields None [] 0 None None None [] [].

(** Fields of a task and of a schema. *)
Definition set_t_name (v : str) (x : task) : task := Task v (t_line x) (t_deps_line x) (t_source x) (t_desc x) (t_alias x) (t_aliases x) (t_vars x) (t_env x) (t_silent x) (t_output x) (t_dir x) (t_when x) (t_deps x) (t_run x).
Definition set_t_line (v : nat) (x : task) : task := Task (t_name x) v (t_deps_line x) (t_source x) (t_desc x) (t_alias x) (t_aliases x) (t_vars x) (t_env x) (t_silent x) (t_output x) (t_dir x) (t_when x) (t_deps x) (t_run x).
Definition set_t_deps_line (v : nat) (x : task) : task := Task (t_name x) (t_line x) v (t_source x) (t_desc x) (t_alias x) (t_aliases x) (t_vars x) (t_env x) (t_silent x) (t_output x) (t_dir x) (t_when x) (t_deps x) (t_run x).
Definition set_t_source (v : str) (x : task) : task := Task (t_name x) (t_line x) (t_deps_line x) v (t_desc x) (t_alias x) (t_aliases x) (t_vars x) (t_env x) (t_silent x) (t_output x) (t_dir x) (t_when x) (t_deps x) (t_run x).
Definition set_t_desc (v : str) (x : task) : task := Task (t_name x) (t_line x) (t_deps_line x) (t_source x) v (t_alias x) (t_aliases x) (t_vars x) (t_env x) (t_silent x) (t_output x) (t_dir x) (t_when x) (t_deps x) (t_run x).
Definition set_t_alias (v : str) (x : task) : task := Task (t_name x) (t_line x) (t_deps_line x) (t_source x) (t_desc x) v (t_aliases x) (t_vars x) (t_env x) (t_silent x) (t_output x) (t_dir x) (t_when x) (t_deps x) (t_run x).
Definition set_t_aliases (v : list str) (x : task) : task := Task (t_name x) (t_line x) (t_deps_line x) (t_source x) (t_desc x) (t_alias x) v (t_vars x) (t_env x) (t_silent x) (t_output x) (t_dir x) (t_when x) (t_deps x) (t_run x).
Definition set_t_vars (v : smap) (x : task) : task := Task (t_name x) (t_line x) (t_deps_line x) (t_source x) (t_desc x) (t_alias x) (t_aliases x) v (t_env x) (t_silent x) (t_output x) (t_dir x) (t_when x) (t_deps x) (t_run x).
Definition set_t_env (v : smap) (x : task) : task := Task (t_name x) (t_line x) (t_deps_line x) (t_source x) (t_desc x) (t_alias x) (t_aliases x) (t_vars x) v (t_silent x) (t_output x) (t_dir x) (t_when x) (t_deps x) (t_run x).
Definition set_t_silent (v : option bool) (x : task) : task := Task (t_name x) (t_line x) (t_deps_line x) (t_source x) (t_desc x) (t_alias x) (t_aliases x) (t_vars x) (t_env x) v (t_output x) (t_dir x) (t_when x) (t_deps x) (t_run x).
Definition set_t_output (v : option bool) (x : task) : task := Task (t_name x) (t_line x) (t_deps_line x) (t_source x) (t_desc x) (t_alias x) (t_aliases x) (t_vars x) (t_env x) (t_silent x) v (t_dir x) (t_when x) (t_deps x) (t_run x).
Definition set_t_dir (v : str) (x : task) : task := Task (t_name x) (t_line x) (t_deps_line x) (t_source x) (t_desc x) (t_alias x) (t_aliases x) (t_vars x) (t_env x) (t_silent x) (t_output x) v (t_when x) (t_deps x) (t_run x).
Definition set_t_when (v : str) (x : task) : task := Task (t_name x) (t_line x) (t_deps_line x) (t_source x) (t_desc x) (t_alias x) (t_aliases x) (t_vars x) (t_env x) (t_silent x) (t_output x) (t_dir x) v (t_deps x) (t_run x).
Definition set_t_deps (v : list str) (x : task) : task := Task (t_name x) (t_line x) (t_deps_line x) (t_source x) (t_desc x) (t_alias x) (t_aliases x) (t_vars x) (t_env x) (t_silent x) (t_output x) (t_dir x) (t_when x) v (t_run x).
Definition set_t_run (v : list run_item) (x : task) : task := Task (t_name x) (t_line x) (t_deps_line x) (t_source x) (t_desc x) (t_alias x) (t_aliases x) (t_vars x) (t_env x) (t_silent x) (t_output x) (t_dir x) (t_when x) (t_deps x) v.
Definition no_task : task := Task [] 0 0 [] [] [] [] None None None None [] [] [] [].
Definition set_f_vars (v : smap) (x : schema) : schema := Schema v (f_env x) (f_silent x) (f_output x) (f_dir x) (f_includes x) (f_tasks x).
Definition set_f_env (v : smap) (x : schema) : schema := Schema (f_vars x) v (f_silent x) (f_output x) (f_dir x) (f_includes x) (f_tasks x).
Definition set_f_silent (v : option bool) (x : schema) : schema := Schema (f_vars x) (f_env x) v (f_output x) (f_dir x) (f_includes x) (f_tasks x).
Definition set_f_output (v : option bool) (x : schema) : schema := Schema (f_vars x) (f_env x) (f_silent x) v (f_dir x) (f_includes x) (f_tasks x).
Definition set_f_dir (v : str) (x : schema) : schema := Schema (f_vars x) (f_env x) (f_silent x) (f_output x) v (f_includes x) (f_tasks x).
Definition set_f_includes (v : gmap str str) (x : schema) : schema := Schema (f_vars x) (f_env x) (f_silent x) (f_output x) (f_dir x) v (f_tasks x).
Definition set_f_tasks (v : taskmap) (x : schema) : schema := Schema (f_vars x) (f_env x) (f_silent x) (f_output x) (f_dir x) (f_includes x) v.
(** Lines 153-158. *)
Definition no_schema : schema := Schema (Some ∅) (Some ∅) None None [] ∅ ∅.

Section Unmarshal.
  Context (Y : yaml).

  (** Lines 66-93 (env) and 95-122 (vars): the same function but for the messages.
      The loop: [m] is the new map, [bad] is [hasErrors]. *)
  Fixpoint str_entries (wrong : str -> derror) (c : list (node * node)) (m : gmap str str) (bad : bool)
      : list derr * bool * gmap str str :=
    match c with
    | [] => ([], bad, m)
    | (k, v) :: r =>
        match v with
        | YScalar _ _ s => str_entries wrong r (<[value_of k := s]> m) bad
        | _ => let '(es, bad', m') := str_entries wrong r m true in ((line_of v, wrong (value_of k)) :: es, bad', m')
        end
    end.
  (** The result: the errors, whether it went well, the map behind the pointer. *)
  Definition parse_str_map (notmap : derror) (wrong : str -> derror) (n : node) (old : smap) : list derr * bool * smap :=
    match n with
    | YMap _ c => let '(es, bad, m) := str_entries wrong c ∅ false in (es, negb bad, Some m)
    | _ => ([(line_of n, notmap)], false, old)
    end.
  Definition parse_env_map := parse_str_map DEnvMap DEnvValue.
  Definition parse_var_map := parse_str_map DVarsMap DVarsValue.

  (** Lines 124-138. *)
  Definition parse_bool (n : node) (old : option bool) : list derr * bool * option bool :=
    match n with
    | YScalar l _ _ =>
        match y_bool Y n with
        | None => ([(l, DBool)], false, old)
        | Some b => ([], true, Some b)
        end
    | _ => ([(line_of n, DBool)], false, old)
    end.

  (** Lines 624-637: the first invalid platform is reported. *)
  Definition parse_platforms (line : nat) (wrap : ierror -> derror) (v : node) : list derr * bool * list str :=
    match y_strs Y v with
    | None => ([(line, wrap IPlatforms)], false, [])
    | Some ps =>
        match filter (fun p => valid_platform p = false) ps with
        | [] => ([], true, ps)
        | p :: _ => ([(line, wrap (IPlatform p))], false, [])
        end
    end.

  (** Lines 317-361: the key of a prompt; the result is the errors, [true] if it went well, the fields. *)
  Definition parse_prompt_key (k v : node) (wrap : ierror -> derror) (pf : pfields) : list derr * bool * pfields :=
    let key := value_of k in
    if is key "prompt" then ([], true, set_pf_name (value_of v) pf)
    else if is key "type" then ([], true, set_pf_type (value_of v) pf)
    else if is key "message" then ([], true, set_pf_message (value_of v) pf)
    else if is key "default" then ([], true, set_pf_dflt (value_of v) pf)
    else if is key "placeholder" then ([], true, set_pf_placeholder (value_of v) pf)
    else if is key "validate" then ([], true, set_pf_validate (value_of v) pf)
    else if is key "options" then
      match y_strs Y v with
      | None => ([(line_of k, wrap IOptions)], false, pf)
      | Some l => ([], true, set_pf_options l pf)
      end
    else if is key "defaults" then
      match y_strs Y v with
      | None => ([(line_of k, wrap IDefaults)], false, pf)
      | Some l => ([], true, set_pf_defaults l pf)
      end
    else if is key "min" then
      match y_int Y v with
      | None => ([(line_of k, wrap IMin)], false, pf)
      | Some z => ([], true, set_pf_min (Some z) pf)
      end
    else if is key "max" then
      match y_int Y v with
      | None => ([(line_of k, wrap IMax)], false, pf)
      | Some z => ([], true, set_pf_max (Some z) pf)
      end
    else if is key "confirm" then
      let '(es, ok, b) := parse_bool v (pf_confirm pf) in (es, ok, set_pf_confirm b pf)
    else ([], true, pf).

  (** [if !ok { rf.hasErrors = true }]. *)
  Definition flag_rf (ok : bool) (rf : rfields) : rfields := if ok then rf else set_rf_bad true rf.

  (** Lines 432-478: one key of a run item. *)
  Definition run_key (wrap : ierror -> derror) (rf : rfields) (k v : node) : list derr * rfields :=
    let key := value_of k in
    if is key "cmd" then ([], set_rf_cmd (value_of v) rf)
    else if is key "dir" then
      match v with
      | YScalar _ _ s => ([], set_rf_dir s rf)
      | _ => ([(line_of v, wrap IDir)], set_rf_bad true rf)
      end
    else if is key "when" then ([], set_rf_when (value_of v) rf)
    else if is key "task" then ([], set_rf_task (value_of v) rf)
    else if is key "log" then ([], set_rf_log (value_of v) rf)
    else if is key "level" then ([], set_rf_level (value_of v) rf)
    else if is key "env" then
      let '(es, ok, m) := parse_env_map v (rf_env rf) in (es, flag_rf ok (set_rf_env m rf))
    else if is key "silent" then
      let '(es, ok, b) := parse_bool v (rf_silent rf) in (es, flag_rf ok (set_rf_silent b rf))
    else if is key "output" then
      let '(es, ok, b) := parse_bool v (rf_output rf) in (es, flag_rf ok (set_rf_output b rf))
    else if is key "platforms" then
      let '(es, ok, ps) := parse_platforms (line_of k) wrap v in (es, flag_rf ok (set_rf_platforms ps rf))
    else if is key "label" then ([], rf)
    else
      let '(es, ok, pf) := parse_prompt_key k v wrap (rf_pf rf) in (es, flag_rf ok (set_rf_pf pf rf)).

  (** Lines 429-481. *)
  Fixpoint run_fields (wrap : ierror -> derror) (c : list (node * node)) (rf : rfields) : list derr * rfields :=
    match c with
    | [] => ([], rf)
    | (k, v) :: r =>
        let '(es, rf') := run_key wrap rf k v in
        let '(es', rf'') := run_fields wrap r rf' in (es ++ es', rf'')
    end.

  (** Lines 363-378. *)
  Definition count_run_types (cmd task log prompt : str) : nat :=
    let one (s : str) := match s with [] => 0 | _ => 1 end in one cmd + one task + one log + one prompt.

  (** Lines 639-652. *)
  Definition build_log_run (line : nat) (wrap : ierror -> derror) (log level : str) (platforms : list str) (when : str)
      : list derr * option run_item :=
    let level := match level with [] => lit "info" | _ => level end in
    if valid_level level then ([], Some (RLog (LogRun line log level platforms when)))
    else ([(line, wrap (ILevel level))], None).

  (** Lines 666-687: the errors and [!hasErrors]; [report] adds one error when [cond]. *)
  Definition report (line : nat) (wrap : ierror -> derror) (cond : bool) (e : ierror) : list derr * bool :=
    if cond then ([(line, wrap e)], false) else ([], true).
  Definition both (a b : list derr * bool) : list derr * bool := (a.1 ++ b.1, b.2 && a.2).
  Definition validate_basics (line : nat) (wrap : ierror -> derror) (pf : pfields) : list derr * bool :=
    let e1 := report line wrap (negb (var_name (pf_name pf))) (IName (pf_name pf)) in
    let e2 := match pf_type pf with
              | [] => report line wrap true INoType
              | t => report line wrap (negb (valid_prompt_type t)) (IType t)
              end in
    let e3 := report line wrap (match pf_message pf with [] => true | _ => false end) INoMessage in
    both (both e1 e2) e3.
  (** Lines 689-719. *)
  Definition non_empty (l : list str) : bool := match l with [] => false | _ => true end.
  Definition given (s : str) : bool := match s with [] => false | _ => true end.
  (** Lines 710-715: one error for each default that is no option. *)
  Fixpoint defaults_in (line : nat) (wrap : ierror -> derror) (options defaults : list str) : list derr * bool :=
    match defaults with
    | [] => ([], true)
    | d :: r => both (report line wrap (negb (bool_decide (d ∈ options))) (INotInOptions d)) (defaults_in line wrap options r)
    end.
  Definition validate_options (line : nat) (wrap : ierror -> derror) (pf : pfields) : list derr * bool :=
    let t := pf_type pf in
    let e1 := report line wrap (requires_options t && negb (non_empty (pf_options pf))) (INoOptions t) in
    let e2 := if is t "select" && given (pf_dflt pf) && non_empty (pf_options pf)
              then report line wrap (negb (bool_decide (pf_dflt pf ∈ pf_options pf))) (INotInOptions (pf_dflt pf))
              else ([], true) in
    let e3 := if is t "multiselect" && non_empty (pf_defaults pf) && non_empty (pf_options pf)
              then defaults_in line wrap (pf_options pf) (pf_defaults pf) else ([], true) in
    both (both e1 e2) e3.
  (** Lines 721-737. *)
  Definition validate_constraints (line : nat) (wrap : ierror -> derror) (pf : pfields) : list derr * bool :=
    let e1 := match pf_min pf, pf_max pf with
              | Some lo, Some hi => report line wrap (hi <? lo)%Z (IMinMax lo hi)
              | _, _ => ([], true)
              end in
    let e2 := report line wrap (given (pf_validate pf) && negb (y_regexp Y (pf_validate pf))) IRegexp in
    both e1 e2.
  (** Lines 739-774. *)
  Definition validate_type_specific (line : nat) (wrap : ierror -> derror) (pf : pfields) : list derr * bool :=
    let t := pf_type pf in
    if valid_prompt_type t then
      let e1 := report line wrap (non_empty (pf_options pf) && negb (requires_options t)) IOptionsFor in
      let e2 := report line wrap (non_empty (pf_defaults pf) && negb (is t "multiselect")) IDefaultsFor in
      let e3 := report line wrap (given (pf_validate pf) && negb (is t "input")) IValidateFor in
      let e4 := report line wrap (match pf_confirm pf with Some _ => true | None => false end && negb (is t "password")) IConfirmFor in
      let e5 := report line wrap (is t "number" && given (pf_dflt pf) && match atoi (pf_dflt pf) with None => true | Some _ => false end)
                  (INotInteger (pf_dflt pf)) in
      both (both (both (both e1 e2) e3) e4) e5
    else ([], true).
  (** Lines 785-819. *)
  Definition validate_prompt_run (line : nat) (wrap : ierror -> derror) (pf : pfields) (platforms : list str) (when : str)
      : list derr * option run_item :=
    let '(es, ok) := both (both (both (validate_basics line wrap pf) (validate_options line wrap pf))
                             (validate_constraints line wrap pf)) (validate_type_specific line wrap pf) in
    (es, if ok then
           Some (RPrompt (PromptRun line (pf_name pf) (pf_type pf) (pf_message pf) platforms (pf_dflt pf) (pf_defaults pf)
                   (pf_options pf) (pf_placeholder pf) (pf_validate pf) (pf_min pf) (pf_max pf) (pf_confirm pf) when))
         else None).

  (** Lines 391-415: a run item without the key [parallel]. *)
  Definition plain_item (line : nat) (wrap : ierror -> derror) (c : list (node * node)) : list derr * option run_item :=
    let '(es, rf) := run_fields wrap c no_rf in
    let count := count_run_types (rf_cmd rf) (rf_task rf) (rf_log rf) (pf_name (rf_pf rf)) in
    if 1 <? count then (es ++ [(line, wrap ITwoKinds)], None)
    else if count =? 0 then (es ++ [(line, wrap INoKind)], None)
    else if rf_bad rf then (es, None)
    else if given (rf_cmd rf) then
      (es, Some (RCmd (CmdRun line (rf_cmd rf) (rf_dir rf) (rf_env rf) (rf_silent rf) (rf_output rf) (rf_platforms rf) (rf_when rf))))
    else if given (rf_task rf) then
      (es, Some (RTask (TaskRun line (rf_task rf) (rf_silent rf) (rf_output rf) (rf_platforms rf) (rf_when rf))))
    else if given (rf_log rf) then
      let '(es', it) := build_log_run line wrap (rf_log rf) (rf_level rf) (rf_platforms rf) (rf_when rf) in (es ++ es', it)
    else if given (pf_name (rf_pf rf)) then
      let '(es', it) := validate_prompt_run line wrap (rf_pf rf) (rf_platforms rf) (rf_when rf) in (es ++ es', it)
    else (es, None).

  (** Lines 494-540. *)
  Definition parallel_key (wrap : ierror -> derror) (k v : node) (qf : qfields) : list derr * bool * qfields :=
    let key := value_of k in
    if is key "parallel" then
      match v with
      | YSeq l its => ([], true, set_qf_items (Some (l, its)) qf)
      | _ => ([(line_of v, wrap IParSeq)], false, qf)
      end
    else if is key "mode" then
      match v with
      | YScalar l _ m => if valid_mode m then ([], true, set_qf_mode m qf) else ([(l, wrap (IMode m))], false, set_qf_mode m qf)
      | _ => ([(line_of v, wrap IModeStr)], false, qf)
      end
    else if is key "limit" then
      match y_int Y v with
      | None => ([(line_of v, wrap ILimit)], false, qf)
      | Some z => if (z <? 0)%Z then ([(line_of v, wrap ILimitNeg)], false, qf) else ([], true, set_qf_limit z qf)
      end
    else if is key "color" then let '(es, ok, b) := parse_bool v (qf_color qf) in (es, ok, set_qf_color b qf)
    else if is key "silent" then let '(es, ok, b) := parse_bool v (qf_silent qf) in (es, ok, set_qf_silent b qf)
    else if is key "output" then let '(es, ok, b) := parse_bool v (qf_output qf) in (es, ok, set_qf_output b qf)
    else if is key "platforms" then
      let '(es, ok, ps) := parse_platforms (line_of k) wrap v in (es, ok, set_qf_platforms ps qf)
    else if is key "when" then ([], true, set_qf_when (value_of v) qf)
    else ([(line_of k, wrap (IUnknownKey key))], false, qf).

  (** Lines 582-586: the loop over the keys; [bad] is [hasErrors]. *)
  Fixpoint parallel_fields (wrap : ierror -> derror) (c : list (node * node)) (bad : bool) (qf : qfields)
      : list derr * bool * qfields :=
    match c with
    | [] => ([], bad, qf)
    | (k, v) :: r =>
        let '(es, ok, qf') := parallel_key wrap k v qf in
        let '(es', bad', qf'') := parallel_fields wrap r (if ok then bad else true) qf' in (es ++ es', bad', qf'')
    end.

  (** Lines 542-555, on the children and their nodes; the lengths agree when it is called. *)
  Fixpoint validate_parallel_items (wrap : ierror -> derror) (nodes : list node) (items : list run_item) : list derr * bool :=
    match items, nodes with
    | it :: items', n :: nodes' =>
        both (match it with
              | RPrompt _ => report (line_of n) wrap true IParPrompt
              | RPar _ _ => report (line_of n) wrap true IParNested
              | _ => ([], true)
              end) (validate_parallel_items wrap nodes' items')
    | _, _ => ([], true)
    end.

  (** Lines 557-573: the first [label] of each child that is a mapping. *)
  Definition label_of (n : node) : str :=
    match n with
    | YMap _ c => default [] ((fun kv => value_of kv.2) <$> head (filter (fun kv => is (value_of kv.1) "label" = true) c))
    | _ => []
    end.
  Definition parallel_labels (nodes : list node) (items : list run_item) : list str :=
    imap (fun j _ => default [] (label_of <$> nodes !! j)) items.

  (** Lines 305-312: the loop of [parseRunItems] over the entries; [item] is [parseRunItem]. *)
  Fixpoint items_loop (item : nat -> node -> list derr * option run_item) (i : nat) (l : list node)
      : list derr * bool * list run_item :=
    match l with
    | [] => ([], false, [])
    | n :: r =>
        let '(es, it) := item i n in
        let '(es', bad, its) := items_loop item (S i) r in
        (es ++ es', match it with None => true | Some _ => bad end, match it with None => its | Some x => x :: its end)
    end.
  (** Lines 296-315. The result: the errors, the items, and whether it went well. *)
  Definition run_items_with (item : nat -> node -> list derr * option run_item) (name : str) (n : node)
      : list derr * bool * list run_item :=
    match n with
    | YSeq _ l => let '(es, bad, its) := items_loop item 0 l in (es, negb bad, its)
    | _ => ([(line_of n, DRunSeq name)], false, [])
    end.

  (** Lines 575-622: a run item with the key [parallel]. *)
  Definition parallel_item (items_of : node -> list derr * bool * list run_item) (line : nat) (wrap : ierror -> derror)
      (c : list (node * node)) : list derr * option run_item :=
    let '(es, bad, qf) := parallel_fields wrap c false no_qf in
    if bad then (es, None)
    else
      match qf_items qf with
      | None => (es, None)
      | Some (l, []) => (es ++ [(l, wrap IParEmpty)], None)
      | Some (l, nodes) =>
          let '(es1, ok, items) := items_of (YSeq l nodes) in
          if ok then
            let '(es2, ok2) := validate_parallel_items wrap nodes items in
            if ok2 then
              (es ++ es1 ++ es2,
               Some (RPar (ParOpts line (parallel_labels nodes items) (match qf_mode qf with [] => lit "interleaved" | m => m end)
                             (qf_limit qf) (qf_color qf) (qf_silent qf) (qf_output qf) (qf_platforms qf) (qf_when qf)) items))
            else (es ++ es1 ++ es2, None)
          else (es ++ es1, None)
      end.

  (** Lines 380-416. The recursion through [parallel] is bounded by [fuel]; the
      depth of the node is always enough ([run_item_fuel]). *)
  Fixpoint run_item_upto (fuel : nat) (name : str) (i : nat) (n : node) : list derr * option run_item :=
    match fuel with
    | 0 => ([], None)
    | S fuel' =>
        match n with
        | YMap line c =>
            if existsb (fun kv => is (value_of kv.1) "parallel") c
            then parallel_item (run_items_with (run_item_upto fuel' name) name) line (DItem name i) c
            else plain_item line (DItem name i) c
        | _ => ([(line_of n, DItem name i INotMap)], None)
        end
    end.

  (** How deep run items are nested in a node: enough fuel. *)
  Fixpoint depth (n : node) : nat :=
    match n with
    | YScalar _ _ _ => 1
    | YSeq _ l => S (foldr (fun x m => Nat.max (depth x) m) 0 l)
    | YMap _ c => S (foldr (fun kv m => Nat.max (depth (snd kv)) m) 0 c)
    | YAlias _ _ t => S (depth t)
    end.
  Definition parse_run_item (name : str) (i : nat) (n : node) : list derr * option run_item := run_item_upto (depth n) name i n.
  Definition parse_run_items (name : str) (n : node) : list derr * bool * list run_item := run_items_with (parse_run_item name) name n.

  (** [if !ok { hasErrors = true }]. *)
  Definition flag (ok bad : bool) : bool := if ok then bad else true.

  (** Lines 239-291: one key of a task; [bad] is [hasErrors]. *)
  Definition task_key (name : str) (k v : node) (bad : bool) (t : task) : list derr * bool * task :=
    let key := value_of k in
    if is key "desc" then ([], bad, set_t_desc (value_of v) t)
    else if is key "alias" then ([], bad, set_t_alias (value_of v) t)
    else if is key "aliases" then
      match y_strs Y v with
      | None => ([(line_of k, DAliases name)], true, t)
      | Some l => ([], bad, set_t_aliases l t)
      end
    else if is key "vars" then let '(es, ok, m) := parse_var_map v (t_vars t) in (es, flag ok bad, set_t_vars m t)
    else if is key "env" then let '(es, ok, m) := parse_env_map v (t_env t) in (es, flag ok bad, set_t_env m t)
    else if is key "silent" then let '(es, ok, b) := parse_bool v (t_silent t) in (es, flag ok bad, set_t_silent b t)
    else if is key "output" then let '(es, ok, b) := parse_bool v (t_output t) in (es, flag ok bad, set_t_output b t)
    else if is key "dir" then
      match v with
      | YScalar _ _ s => ([], bad, set_t_dir s t)
      | _ => ([(line_of v, DTaskDir name)], true, t)
      end
    else if is key "when" then ([], bad, set_t_when (value_of v) t)
    else if is key "deps" then
      let t := set_t_deps_line (line_of k) t in
      match y_strs Y v with
      | None => ([(line_of k, DDeps name)], true, t)
      | Some l => ([], bad, set_t_deps l t)
      end
    else if is key "run" then let '(es, ok, its) := parse_run_items name v in (es, flag ok bad, set_t_run its t)
    else ([], bad, t).
  Fixpoint task_fields (name : str) (c : list (node * node)) (bad : bool) (t : task) : list derr * bool * task :=
    match c with
    | [] => ([], bad, t)
    | (k, v) :: r =>
        let '(es, bad', t') := task_key name k v bad t in
        let '(es', bad'', t'') := task_fields name r bad' t' in (es ++ es', bad'', t'')
    end.
  (** Lines 230-294. *)
  Definition parse_task (name : str) (n : node) : list derr * option task :=
    match n with
    | YMap _ c => let '(es, bad, t) := task_fields name c false no_task in (es, if bad then None else Some t)
    | _ => ([(line_of n, DTaskMap name)], None)
    end.

  (** Lines 205-227: [lines] is [taskLines], [tasks] is [schema.Tasks]. *)
  Fixpoint tasks_loop (c : list (node * node)) (lines : gmap str nat) (tasks : taskmap) : list derr * taskmap :=
    match c with
    | [] => ([], tasks)
    | (k, v) :: r =>
        let name := value_of k in
        match lines !! name with
        | Some orig => let '(es, tasks') := tasks_loop r lines tasks in ((line_of k, DDuplicate name orig) :: es, tasks')
        | None =>
            let lines := <[name := line_of k]> lines in
            let '(es, ot) := parse_task name v in
            let tasks := match ot with None => tasks | Some t => <[name := set_t_line (line_of k) t]> tasks end in
            let '(es', tasks') := tasks_loop r lines tasks in (es ++ es', tasks')
        end
    end.
  (** Lines 197-228. *)
  Definition parse_tasks (n : node) (s : schema) : list derr * schema :=
    match n with
    | YMap _ c => let '(es, tasks) := tasks_loop c ∅ (f_tasks s) in (es, set_f_tasks tasks s)
    | _ => ([(line_of n, DTasksMap)], s)
    end.

  (** Lines 821-838. *)
  Fixpoint includes_loop (c : list (node * node)) (incs : gmap str str) : list derr * gmap str str :=
    match c with
    | [] => ([], incs)
    | (k, v) :: r =>
        match y_include Y v with
        | None => let '(es, incs') := includes_loop r incs in ((line_of k, DInclude (value_of k)) :: es, incs')
        | Some p => includes_loop r (<[value_of k := p]> incs)
        end
    end.
  Definition parse_includes (n : node) (s : schema) : list derr * schema :=
    match n with
    | YMap _ c => let '(es, incs) := includes_loop c (f_includes s) in (es, set_f_includes incs s)
    | _ => ([(line_of n, DIncludesMap)], s)
    end.

  (** Lines 162-188. *)
  Definition root_key (k v : node) (s : schema) : list derr * schema :=
    let key := value_of k in
    if is key "vars" then let '(es, _, m) := parse_var_map v (f_vars s) in (es, set_f_vars m s)
    else if is key "env" then let '(es, _, m) := parse_env_map v (f_env s) in (es, set_f_env m s)
    else if is key "silent" then let '(es, _, b) := parse_bool v (f_silent s) in (es, set_f_silent b s)
    else if is key "output" then let '(es, _, b) := parse_bool v (f_output s) in (es, set_f_output b s)
    else if is key "dir" then
      match v with
      | YScalar _ _ d => ([], set_f_dir d s)
      | _ => ([(line_of v, DDir)], s)
      end
    else if is key "tasks" then parse_tasks v s
    else if is key "includes" then parse_includes v s
    else ([], s).
  Fixpoint root_fields (c : list (node * node)) (s : schema) : list derr * schema :=
    match c with
    | [] => ([], s)
    | (k, v) :: r =>
        let '(es, s') := root_key k v s in
        let '(es', s'') := root_fields r s' in (es ++ es', s'')
    end.

  (** Lines 140-195, and the cases of its caller, parser.go 64-87. *)
  Inductive doc_err :=
  | ESyntax                       (* invalid YAML syntax *)
  | ENoDocument                   (* invalid document *)
  | EInvalid (es : list derr).    (* ParseError at the root, or ValidationErrors *)
  Definition unmarshal_node (n : node) : res doc_err schema :=
    match n with
    | YMap _ c =>
        let '(es, s) := root_fields c no_schema in
        match es with [] => Ok s | _ => Err (EInvalid es) end
    | _ => Err (EInvalid [(line_of n, DNotMap)])
    end.
  Definition unmarshal (data : str) : res doc_err schema :=
    match y_parse Y data with
    | YSyntax => Err ESyntax
    | YEmpty => Err ENoDocument
    | YDoc n => unmarshal_node n
    end.

  (** parser.go 59-64 for all files: what [parse_file] of [Include_Model] works on. *)
  Definition decoded (files : gmap str str) : fsys :=
    (fun data => match unmarshal data with Ok s => Some s | Err _ => None end) <$> files.
End Unmarshal.
