(** The published JSON schema (schema/babfile.schema.json, made by the [...Schema]
    functions of internal/babfile and internal/schema/schema.go), and what it means
    for a document to be valid against it (JSON Schema draft 7, the keywords the file
    uses). Descriptions and defaults say nothing about validity and are left out;
    [$ref]s are written out, they are not recursive. *)
From Verif Require Import Base Types_Model Path_Model Doc_Model.

(** JSON values. [JOther]: null and numbers that are no integers. *)
Inductive json :=
| JStr (s : str) | JBool (b : bool) | JInt (z : Z) | JOther
| JArr (l : list json) | JObj (l : list (str * json)).

(** The patterns: babfile/task.go 8, variable.go 5, include.go 19. *)
Inductive pattern := PTask | PVar | PBabfile.

(** [a-zA-Z0-9_-]. *)
Definition name_char (c : ascii) : bool := word_char c || (code c =? 45).
(** task.go 8: one or more parts of such characters, with colons between them. *)
Definition task_pattern (s : str) : bool :=
  forallb (fun w => match w with [] => false | _ => forallb name_char w end) (split_on ":"%char s).
(** include.go 19: [s] has a part [babfile] or [Babfile], and what follows it is one of
    the endings .yml and .yaml, perhaps with something that begins with a dot (and is
    on one line) between. *)
Fixpoint ends_yaml (s : str) : bool :=
  bool_decide (s = lit ".yml") || bool_decide (s = lit ".yaml") || match s with [] => false | c :: r => negb (code c =? 10) && ends_yaml r end.
Definition after_babfile (s : str) : bool :=
  bool_decide (s = lit ".yml") || bool_decide (s = lit ".yaml") || match s with "."%char :: r => ends_yaml r | _ => false end.
Fixpoint babfile_pattern (s : str) : bool :=
  match s with
  | [] => false
  | c :: r =>
      match strip_prefix (lit "Babfile") s, strip_prefix (lit "babfile") s with
      | Some t, _ => after_babfile t
      | None, Some t => after_babfile t
      | None, None => false
      end || babfile_pattern r
  end.
Definition matches_pattern (p : pattern) (s : str) : bool :=
  match p with PTask => task_pattern s | PVar => var_name s | PBabfile => babfile_pattern s end.

(** The shapes of schemas that occur. For an object: [properties], [required],
    [additionalProperties] ([None] is false), [propertyNames] (a pattern) and
    [minProperties]. *)
Inductive jschema :=
| SString (min_length : nat) (enum : option (list str)) (pat : option pattern)
| SBool
| SInteger (minimum : option Z)
| SArray (items : jschema) (min_items : nat) (unique : bool)
| SObject (props : list (str * jschema)) (required : list str) (extra : option jschema) (names : option pattern) (min : nat)
| SOneOf (l : list jschema).

(** [uniqueItems]; it is used with strings only. *)
Definition as_str (j : json) : option str := match j with JStr s => Some s | _ => None end.
Definition unique_items (l : list json) : bool := bool_decide (NoDup (omap as_str l)).
Definition opt_pattern (p : option pattern) (s : str) : bool := match p with Some p => matches_pattern p s | None => true end.

(** Validity. [minLength] counts characters; only 0 and 1 occur, for which bytes do. *)
Fixpoint valid (s : jschema) (j : json) {struct s} : bool :=
  match s, j with
  | SString n enum pat, JStr t =>
      (n <=? length t) && match enum with Some l => bool_decide (t ∈ l) | None => true end && opt_pattern pat t
  | SBool, JBool _ => true
  | SInteger lo, JInt z => match lo with Some m => (m <=? z)%Z | None => true end
  | SArray items n uniq, JArr l => forallb (valid items) l && (n <=? length l) && (negb uniq || unique_items l)
  | SObject props req extra names n, JObj l =>
      forallb (fun kv =>
        opt_pattern names kv.1 &&
        (fix look (ps : list (str * jschema)) : bool :=
           match ps with
           | [] => match extra with Some s => valid s kv.2 | None => false end
           | (k, s) :: r => if decide (k = kv.1) then valid s kv.2 else look r
           end) props) l
      && forallb (fun k => bool_decide (k ∈ l.*1)) req && (n <=? length l)
  | SOneOf l, _ => length (filter (fun b : bool => b) (map (fun s => valid s j) l)) =? 1
  | _, _ => false
  end.

(** ** The schema *)

(** dir.go, when.go, label.go, silent.go, output.go, env.go 5-13, variable.go 18-31,
    platform.go 30-47. *)
Definition s_text : jschema := SString 0 None None.
Definition s_text1 : jschema := SString 1 None None.
Definition s_enum (l : list string) : jschema := SString 0 (Some (map lit l)) None.
Definition s_env : jschema := SObject [] [] (Some s_text) None 0.
Definition s_vars : jschema := SObject [] [] (Some s_text) (Some PVar) 0.
Definition s_platforms : jschema := SArray (s_enum ["linux"; "darwin"; "windows"]) 0 true.
Definition named_props (l : list (string * jschema)) : list (str * jschema) := map (fun ks => (lit ks.1, ks.2)) l.

(** run_cmd.go 31-54. *)
Definition s_cmd : jschema :=
  SObject (named_props [("cmd", s_text1); ("dir", s_text); ("env", s_env); ("silent", SBool); ("output", SBool);
    ("platforms", s_platforms); ("when", s_text); ("label", s_text)])%string [lit "cmd"] None None 0.
(** run_task.go 29-51. *)
Definition s_task_ref : jschema :=
  SObject (named_props [("task", SString 1 None (Some PTask)); ("silent", SBool); ("output", SBool);
    ("platforms", s_platforms); ("when", s_text); ("label", s_text)])%string [lit "task"] None None 0.
(** run_log.go 33-44, 64-85. *)
Definition s_log : jschema :=
  SObject (named_props [("log", s_text1); ("level", s_enum ["debug"; "info"; "warn"; "error"]);
    ("platforms", s_platforms); ("when", s_text); ("label", s_text)])%string [lit "log"] None None 0.
(** run_prompt.go 45-56, 87-151. *)
Definition s_prompt : jschema :=
  SObject (named_props [("prompt", SString 1 None (Some PVar));
    ("type", s_enum ["confirm"; "input"; "select"; "multiselect"; "password"; "number"]); ("message", s_text1);
    ("default", SOneOf [s_text; SBool]); ("defaults", SArray s_text 0 false); ("options", SArray s_text1 1 false);
    ("placeholder", s_text); ("validate", s_text); ("min", SInteger None); ("max", SInteger None); ("confirm", SBool);
    ("platforms", s_platforms); ("when", s_text)])%string (map lit ["prompt"; "type"; "message"]%string) None None 0.
(** run.go 23-31. *)
Definition s_child : jschema := SOneOf [s_cmd; s_task_ref; s_log].
(** run_parallel.go 83-130. *)
Definition s_parallel : jschema :=
  SObject (named_props [("parallel", SArray s_child 1 false); ("mode", s_enum ["interleaved"; "grouped"; "tabs"]);
    ("limit", SInteger (Some 0%Z)); ("color", SBool); ("silent", SBool); ("output", SBool);
    ("platforms", s_platforms); ("when", s_text)])%string [lit "parallel"] None None 0.
(** run.go 11-21. *)
Definition s_item : jschema := SOneOf [s_cmd; s_task_ref; s_log; s_prompt; s_parallel].
(** task.go 53-116. *)
Definition s_names : jschema := SArray (SString 0 None (Some PTask)) 0 true.
Definition s_task : jschema :=
  SObject (named_props [("desc", s_text); ("alias", SString 0 None (Some PTask)); ("aliases", s_names); ("vars", s_vars);
    ("env", s_env); ("silent", SBool); ("output", SBool); ("dir", s_text); ("when", s_text); ("deps", s_names);
    ("run", SArray s_item 1 false)])%string [] None None 0.
(** include.go 12-29. *)
Definition s_include : jschema :=
  SObject (named_props [("babfile", SString 1 None (Some PBabfile))])%string [lit "babfile"] None None 0.
(** babfile.go 18-59. *)
Definition s_babfile : jschema :=
  SObject (named_props [("vars", s_vars); ("env", s_env); ("silent", SBool); ("output", SBool); ("dir", s_text);
    ("includes", SObject [] [] (Some s_include) (Some PTask) 0);
    ("tasks", SObject [] [] (Some s_task) (Some PTask) 1)])%string [] None None 0.

(** ** A YAML document as a JSON value

    What an editor looks at: [sc] reads scalars (tag and text), [ok] restricts the
    integers (to be able to speak about documents whose integers are not too large).
    Keys are scalars and do not repeat. An alias stands for its target; [aliases] says
    whether there may be any. *)
Inductive shows (sc : str -> str -> json) (ok : Z -> Prop) (aliases : Prop) : node -> json -> Prop :=
| sh_scalar l t v : (forall z, sc t v = JInt z -> ok z) -> shows sc ok aliases (YScalar l t v) (sc t v)
| sh_seq l ns js : Forall2 (shows sc ok aliases) ns js -> shows sc ok aliases (YSeq l ns) (JArr js)
| sh_map l c js :
    NoDup (map (fun kv => value_of kv.1) c) ->
    Forall2 (fun kv js => js.1 = value_of kv.1 /\ shows sc ok aliases kv.2 js.2) c js ->
    shows sc ok aliases (YMap l c) (JObj js)
| sh_alias l a t j : aliases -> shows sc ok aliases t j -> shows sc ok aliases (YAlias l a t) j.

(** How bab's YAML library and the editor's agree. *)
Record agrees (Y : yaml) (sc : str -> str -> json) : Prop := {
  ag_scalar : forall t v, match sc t v with JArr _ | JObj _ => False | _ => True end;
  ag_str : forall t v s, sc t v = JStr s -> s = v;
  ag_bool : forall l t v b, sc t v = JBool b -> y_bool Y (YScalar l t v) = Some b;
  ag_int : forall l t v z, sc t v = JInt z -> in_int64 z = true -> y_int Y (YScalar l t v) = Some z;
  ag_strs : forall l ns, Forall (fun n => exists l t v, n = YScalar l t v /\ sc t v = JStr v) ns ->
    y_strs Y (YSeq l ns) = Some (map value_of ns);
  ag_include : forall l k l' t v, value_of k = lit "babfile" -> sc t v = JStr v ->
    y_include Y (YMap l [(k, YScalar l' t v)]) = Some v }.
