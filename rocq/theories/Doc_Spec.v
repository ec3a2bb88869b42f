(** What a Babfile means, stated on the YAML tree without the loops, flags and
    error lists of unmarshal.go: which documents are accepted ([means]) and what
    each entry stands for. A key that occurs more than once counts the last time. *)
From Verif Require Import Base Types_Model Include_Model Doc_Model.

(** The entries of a mapping under a key, and the one that counts. *)
Definition under (c : list (node * node)) (x : str) : list node := (filter (fun kv => value_of kv.1 = x) c).*2.
Definition field_at (c : list (node * node)) (x : str) : option node := last (under c x).
Definition field (c : list (node * node)) (k : string) : option node := field_at c (lit k).
Definition text (c : list (node * node)) (k : string) : str := match field c k with Some v => value_of v | None => [] end.
Definition has (c : list (node * node)) (k : string) : Prop := exists kv, kv ∈ c /\ value_of kv.1 = lit k.

(** The key node itself (for its line). *)
Definition key_at (c : list (node * node)) (k : string) : option node := last (filter (fun kv => value_of kv.1 = lit k) c).*1.

Definition scalar (n : node) : Prop := match n with YScalar _ _ _ => True | _ => False end.

(** A mapping from names to texts. *)
Definition str_map_ok (n : node) : Prop := exists l c, n = YMap l c /\ Forall (fun kv => scalar kv.2) c.
Definition str_map (n : node) : gmap str str :=
  match n with YMap _ c => list_to_map (reverse (map (fun kv => (value_of kv.1, value_of kv.2)) c)) | _ => ∅ end.
Definition map_of (c : list (node * node)) (k : string) : smap := str_map <$> field c k.

Definition one_of (l : list string) (s : str) : Prop := s ∈ map lit l.

(** [^[a-zA-Z_][a-zA-Z0-9_]*$]. *)
Definition letter (c : ascii) : Prop := 97 <= code c <= 122 \/ 65 <= code c <= 90 \/ code c = 95.
Definition name_ok (s : str) : Prop :=
  exists c r, s = c :: r /\ letter c /\ Forall (fun c => letter c \/ 48 <= code c <= 57) r.

(** Decimal numbers: the value of a non-empty string of digits, and with a sign. *)
Inductive decimal : str -> Z -> Prop :=
| dec_one c : 48 <= code c <= 57 -> decimal [c] (Z.of_nat (code c) - 48)
| dec_more s z c : decimal s z -> 48 <= code c <= 57 -> decimal (s ++ [c]) (z * 10 + (Z.of_nat (code c) - 48)).
Inductive integer : str -> Z -> Prop :=
| int_plain s z : decimal s z -> (z < 2 ^ 63)%Z -> integer s z
| int_plus s z : decimal s z -> (z < 2 ^ 63)%Z -> integer ("+"%char :: s) z
| int_minus s z : decimal s z -> (z <= 2 ^ 63)%Z -> integer ("-"%char :: s) (- z).

(** A prompt as the documentation has it. [re] is: the pattern compiles. *)
Record prompt_ok (re : str -> Prop) (p : prompt_run) : Prop := {
  po_name : name_ok (p_prompt p);
  po_type : one_of ["confirm"; "input"; "select"; "multiselect"; "password"; "number"] (p_type p);
  po_message : p_message p <> [];
  po_options : p_options p <> [] <-> one_of ["select"; "multiselect"] (p_type p);
  po_default : p_type p = lit "select" -> p_default p <> [] -> p_default p ∈ p_options p;
  po_defaults : p_defaults p <> [] -> p_type p = lit "multiselect";
  po_defaults_in : Forall (fun d => d ∈ p_options p) (p_defaults p);
  po_range : forall lo hi, p_min p = Some lo -> p_max p = Some hi -> (lo <= hi)%Z;
  po_validate : p_validate p <> [] -> p_type p = lit "input" /\ re (p_validate p);
  po_confirm : is_Some (p_confirm p) -> p_type p = lit "password";
  po_number : p_type p = lit "number" -> p_default p <> [] -> exists z, integer (p_default p) z }.

(** What may stand inside a parallel block. *)
Definition simple (it : run_item) : Prop := match it with RPrompt _ | RPar _ _ => False | _ => True end.

(** The first label. *)
Definition label (n : node) : str :=
  match n with YMap _ c => match under c (lit "label") with v :: _ => value_of v | [] => [] end | _ => [] end.

Section Spec.
  Context (Y : yaml).

  Definition bool_ok (v : node) : Prop := scalar v /\ is_Some (y_bool Y v).
  Definition platforms_ok (v : node) : Prop :=
    exists ps, y_strs Y v = Some ps /\ Forall (one_of ["linux"; "darwin"; "windows"]) ps.
  Definition bool_of (c : list (node * node)) (k : string) : option bool := field c k ≫= y_bool Y.
  Definition strs_of (c : list (node * node)) (k : string) : list str := default [] (field c k ≫= y_strs Y).
  Definition int_of (c : list (node * node)) (k : string) : option Z := field c k ≫= y_int Y.

  (** One entry of a run item that is no parallel block. *)
  Record entry_ok (k : str) (v : node) : Prop := {
    eo_dir : k = lit "dir" -> scalar v;
    eo_env : k = lit "env" -> str_map_ok v;
    eo_bool : one_of ["silent"; "output"; "confirm"] k -> bool_ok v;
    eo_platforms : k = lit "platforms" -> platforms_ok v;
    eo_strs : one_of ["options"; "defaults"] k -> is_Some (y_strs Y v);
    eo_int : one_of ["min"; "max"] k -> is_Some (y_int Y v) }.
  (** One entry of a parallel block. *)
  Record block_entry_ok (k : str) (v : node) : Prop := {
    bo_key : one_of ["parallel"; "mode"; "limit"; "color"; "silent"; "output"; "platforms"; "when"] k;
    bo_items : k = lit "parallel" -> exists l its, v = YSeq l its;
    bo_mode : k = lit "mode" -> scalar v /\ one_of ["interleaved"; "grouped"; "tabs"] (value_of v);
    bo_limit : k = lit "limit" -> exists z, y_int Y v = Some z /\ (0 <= z)%Z;
    bo_bool : one_of ["color"; "silent"; "output"] k -> bool_ok v;
    bo_platforms : k = lit "platforms" -> platforms_ok v }.

  (** No item has two of cmd, task, log, prompt; [k] is the one it has. *)
  Definition the_kind (c : list (node * node)) (k : string) : Prop :=
    ~ has c "parallel" /\ Forall (fun kv => entry_ok (value_of kv.1) kv.2) c /\
    forall k', In k' ["cmd"; "task"; "log"; "prompt"]%string -> (text c k' <> [] <-> k' = k).

  Definition or_else (s : str) (d : string) : str := match s with [] => lit d | _ => s end.

  (** A run item and the node it comes from, field by field. *)
  Inductive becomes : node -> run_item -> Prop :=
  | B_cmd l c : the_kind c "cmd" ->
      becomes (YMap l c) (RCmd (CmdRun l (text c "cmd") (text c "dir") (map_of c "env") (bool_of c "silent") (bool_of c "output")
                                  (strs_of c "platforms") (text c "when")))
  | B_task l c : the_kind c "task" ->
      becomes (YMap l c) (RTask (TaskRun l (text c "task") (bool_of c "silent") (bool_of c "output") (strs_of c "platforms") (text c "when")))
  | B_log l c : the_kind c "log" -> one_of ["debug"; "info"; "warn"; "error"] (or_else (text c "level") "info") ->
      becomes (YMap l c) (RLog (LogRun l (text c "log") (or_else (text c "level") "info") (strs_of c "platforms") (text c "when")))
  | B_prompt l c p : the_kind c "prompt" ->
      p = PromptRun l (text c "prompt") (text c "type") (text c "message") (strs_of c "platforms") (text c "default")
            (strs_of c "defaults") (strs_of c "options") (text c "placeholder") (text c "validate") (int_of c "min") (int_of c "max")
            (bool_of c "confirm") (text c "when") ->
      prompt_ok (fun s => y_regexp Y s = true) p ->
      becomes (YMap l c) (RPrompt p)
  | B_par l c l' its items :
      Forall (fun kv => block_entry_ok (value_of kv.1) kv.2) c ->
      field c "parallel" = Some (YSeq l' its) -> its <> [] -> Forall2 becomes its items -> Forall simple items ->
      becomes (YMap l c) (RPar (ParOpts l (map label its) (or_else (text c "mode") "interleaved") (default 0%Z (int_of c "limit"))
                                  (bool_of c "color") (bool_of c "silent") (bool_of c "output") (strs_of c "platforms") (text c "when")) items).

  (** One entry of a task. *)
  Record task_entry_ok (k : str) (v : node) : Prop := {
    to_strs : one_of ["aliases"; "deps"] k -> is_Some (y_strs Y v);
    to_map : one_of ["vars"; "env"] k -> str_map_ok v;
    to_bool : one_of ["silent"; "output"] k -> bool_ok v;
    to_dir : k = lit "dir" -> scalar v;
    to_run : k = lit "run" -> exists l its, v = YSeq l its /\ Forall (fun n => exists it, becomes n it) its }.

  (** A task: the node of its name and the node of its body. *)
  Definition task_means (k v : node) (t : task) : Prop :=
    exists l c, v = YMap l c /\ Forall (fun kv => task_entry_ok (value_of kv.1) kv.2) c /\
      t = Task [] (line_of k) (match key_at c "deps" with Some n => line_of n | None => 0 end) [] (text c "desc") (text c "alias")
            (strs_of c "aliases") (map_of c "vars") (map_of c "env") (bool_of c "silent") (bool_of c "output") (text c "dir")
            (text c "when") (strs_of c "deps") (t_run t) /\
      match field c "run" with
      | None => t_run t = []
      | Some n => exists l' its, n = YSeq l' its /\ Forall2 becomes its (t_run t)
      end.

  (** One section of a document. *)
  Record section_ok (k : str) (v : node) : Prop := {
    so_map : one_of ["vars"; "env"] k -> str_map_ok v;
    so_bool : one_of ["silent"; "output"] k -> bool_ok v;
    so_dir : k = lit "dir" -> scalar v;
    so_tasks : k = lit "tasks" -> exists l es, v = YMap l es /\ NoDup (map (fun kv => value_of kv.1) es) /\
      Forall (fun kv => exists t, task_means kv.1 kv.2 t) es;
    so_includes : k = lit "includes" -> exists l es, v = YMap l es /\ Forall (fun kv => is_Some (y_include Y kv.2)) es }.

  (** All entries of all sections with a name. *)
  Definition entries (c : list (node * node)) (k : string) : list (node * node) :=
    concat (map (fun v => match v with YMap _ es => es | _ => [] end) (under c (lit k))).

  (** A document and its Babfile. *)
  Definition means (n : node) (s : schema) : Prop :=
    exists l c, n = YMap l c /\ Forall (fun kv => section_ok (value_of kv.1) kv.2) c /\
      f_vars s = Some (smap_get (map_of c "vars")) /\ f_env s = Some (smap_get (map_of c "env")) /\
      f_silent s = bool_of c "silent" /\ f_output s = bool_of c "output" /\ f_dir s = text c "dir" /\
      (forall x, f_includes s !! x = field_at (entries c "includes") x ≫= y_include Y) /\
      (forall x t, f_tasks s !! x = Some t <->
         exists k v, last (filter (fun kv => value_of kv.1 = x) (entries c "tasks")) = Some (k, v) /\ task_means k v t).
End Spec.
