(** What error messages say: internal/errs (the [Error] methods) and the messages of
    internal/parser/unmarshal.go, with [fmt.Sprintf] and [strconv.Quote]. *)
From Verif Require Import Base Types_Model Utf8_Model Path_Model Valid_Model Include_Model Doc_Model Out_Model Loc_Model Cli_Model.

(** ** strconv.Quote, which [%q] prints a string with *)

(** The last [k] hexadecimal digits of a number. *)
Definition hex_digit (n : N) : ascii := of_byte (if n <? 10 then 48 + n else 87 + n)%N.
Fixpoint hex (k : nat) (n : N) : str :=
  match k with O => [] | S k' => hex k' (n / 16)%N ++ [hex_digit (n mod 16)%N] end.
Definition quote_char : ascii := """"%char.
Definition backslash : ascii := "\"%char.

(** The letter of a control character with an escape of its own. *)
Definition control_letter (r : N) : option ascii :=
  match r with
  | 7 => Some "a"%char | 8 => Some "b"%char | 12 => Some "f"%char | 10 => Some "n"%char
  | 13 => Some "r"%char | 9 => Some "t"%char | 11 => Some "v"%char | _ => None
  end%N.

Section Quote.
  (** [strconv.IsPrint]: a table of the library. *)
  Context (is_print : N -> bool).

  (** strconv/quote.go [appendEscapedRune] for the double quote and without the two flags.
      A decoded rune is always valid, so the case [!utf8.ValidRune] does not arise. *)
  Definition escape_rune (r : N) : str :=
    if (r =? 34)%N || (r =? 92)%N then [backslash; of_byte r]
    else if is_print r then encode_rune r
    else match control_letter r with
         | Some c => [backslash; c]
         | None =>
             if (r <? 32)%N || (r =? 127)%N then backslash :: "x"%char :: hex 2 r
             else if (r <? 65536)%N then backslash :: "u"%char :: hex 4 r
             else backslash :: "U"%char :: hex 8 r
         end.
  (** strconv/quote.go [appendQuotedWith]: one step of the loop, for a rune and the bytes
      it was read from. *)
  Definition escape_unit (u : N * str) : str :=
    match u.2 with
    | [b] => if (u.1 =? rune_error)%N then backslash :: "x"%char :: hex 2 (byte b) else escape_rune u.1
    | _ => escape_rune u.1
    end.
  Definition quote (s : str) : str := quote_char :: concat (map escape_unit (units s)) ++ [quote_char].

  (** ** fmt.Sprintf for the verbs in use *)

  Inductive tok := TC (c : ascii) | TQ | TD | TS.
  (** A format string; the verbs are %q, %d, %s and %v (of an error: its text). *)
  Fixpoint fmt_of (f : str) : list tok :=
    match f with
    | "%"%char :: "q"%char :: r => TQ :: fmt_of r
    | "%"%char :: "d"%char :: r => TD :: fmt_of r
    | "%"%char :: "s"%char :: r => TS :: fmt_of r
    | "%"%char :: "v"%char :: r => TS :: fmt_of r
    | c :: r => TC c :: fmt_of r
    | [] => []
    end.
  Definition fmt (f : string) : list tok := fmt_of (lit f).

  Inductive arg := AStr (s : str) | ANum (z : Z).
  Definition itoa_z (z : Z) : str := if (z <? 0)%Z then "-"%char :: itoa (Z.abs_nat z) else itoa (Z.abs_nat z).
  (** Verbs and arguments agree at every call, so the last case does not arise. *)
  Fixpoint sprintf (f : list tok) (args : list arg) : str :=
    match f, args with
    | [], _ => []
    | TC c :: f', _ => c :: sprintf f' args
    | TQ :: f', AStr s :: args' => quote s ++ sprintf f' args'
    | TD :: f', ANum z :: args' => itoa_z z ++ sprintf f' args'
    | TS :: f', AStr s :: args' => s ++ sprintf f' args'
    | _, _ => []
    end.

  (** ** The errors of internal/errs *)

  Section Errors.
  (** [os.Getwd] and [strings.ToLower]. *)
  Context (cwd : option str) (lower : str -> str).

  Definition num (n : nat) : arg := ANum (Z.of_nat n).

  (** parse.go 16-22; [cause] is the text of the cause if there is one. *)
  Definition parse_error (path : str) (line column : nat) (message : str) (cause : option str) : str :=
    let loc := format_location cwd path line column in
    match cause with
    | Some c => sprintf (fmt "%s: %v") [AStr loc; AStr c]
    | None => sprintf (fmt "%s: %s") [AStr loc; AStr message]
    end.

  (** parse.go 47-53; the arrow is three bytes between two blanks. *)
  Definition arrow : str := " "%char :: encode_rune 8594 ++ [" "%char].
  Definition circular_error (path type : str) (chain : list str) : str :=
    let chain_str := join_with arrow chain in
    match path with
    | [] => sprintf (fmt "circular %s: %s") [AStr type; AStr chain_str]
    | _ => sprintf (fmt "%s: circular %s: %s") [AStr (relative_path cwd path); AStr type; AStr chain_str]
    end.

  (** parse.go 77-80 and interpolate.go 17-20. *)
  Definition did_you_mean (name : str) (available : list str) : str :=
    match find_similar lower name available with
    | [] => []
    | s => sprintf (fmt " (did you mean %q?)") [AStr s]
    end.
  (** parse.go 67-83. *)
  Definition not_found_error (path : str) (line : nat) (name : str) (available : list str) : str :=
    let loc := match path with
               | [] => []
               | _ => if 0 <? line then sprintf (fmt "%s:%d: ") [AStr (relative_path cwd path); num line]
                      else relative_path cwd path ++ lit ": "
               end in
    sprintf (fmt "%stask %q not found%s") [AStr loc; AStr name; AStr (did_you_mean name available)].

  (** parse.go 97-100. *)
  Definition duplicate_task_error (path : str) (line : nat) (name : str) (original : nat) : str :=
    sprintf (fmt "%s:%d: duplicate task %q (first defined at line %d)") [AStr (relative_path cwd path); num line; AStr name; num original].
  (** parse.go 113-116. *)
  Definition alias_conflict_error (path : str) (line : nat) (alias name : str) : str :=
    sprintf (fmt "%s:%d: alias %q for task %q conflicts with existing task name") [AStr (relative_path cwd path); num line; AStr alias; AStr name].
  (** parse.go 131-135. *)
  Definition duplicate_alias_error (path : str) (line : nat) (alias name original : str) (oline : nat) : str :=
    sprintf (fmt "%s:%d: alias %q for task %q already defined by task %q at line %d")
      [AStr (relative_path cwd path); num line; AStr alias; AStr name; AStr original; num oline].

  (** interpolate.go 29-38 and 64-73. *)
  Definition var_location (path : str) (line : nat) : str :=
    match path with
    | [] => []
    | _ => if 0 <? line then sprintf (fmt "%s:%d") [AStr (relative_path cwd path); num line] else relative_path cwd path
    end.
  (** interpolate.go 15-27. *)
  Definition var_not_found_error (path : str) (line : nat) (name : str) (available : list str) : str :=
    match var_location path line with
    | [] => sprintf (fmt "undefined variable: %s%s") [AStr name; AStr (did_you_mean name available)]
    | loc => sprintf (fmt "%s: undefined variable: %s%s") [AStr loc; AStr name; AStr (did_you_mean name available)]
    end.
  (** interpolate.go 50-62. *)
  Definition var_cycle_error (path : str) (line : nat) (name : str) (chain : list str) : str :=
    let msg := match chain with
               | [] => sprintf (fmt "circular variable reference: %s") [AStr name]
               | _ => sprintf (fmt "circular variable reference: %s") [AStr (join_with arrow chain)]
               end in
    match var_location path line with
    | [] => msg
    | loc => sprintf (fmt "%s: %s") [AStr loc; AStr msg]
    end.

  (** ** The messages of internal/parser/unmarshal.go *)

  (** What an error says beyond [derror]: the name of the prompt, the text of the error
      of [regexp.Compile], that of the failed [Decode], and for an expected boolean whether
      there was a [Decode] (lines 125-133). *)
  Record extra := Extra { x_prompt : str; x_regexp : str; x_decode : str; x_scalar : bool }.

  (** The sites with a [Cause]: lines 132, 250, 281, 333, 338, 344, 351, 515, 627, 833. *)
  Definition caused (x : extra) (e : derror) : bool :=
    match e with
    | DBool => x_scalar x
    | DInclude _ | DAliases _ | DDeps _ => true
    | DItem _ _ e => match e with IPlatforms | IOptions | IDefaults | IMin | IMax | ILimit => true | _ => false end
    | _ => false
    end.

  (** The text of an error about a run item after its prefix (the task and the index): lines
      333-351, 382, 398, 401, 441, 498-536, 547, 550, 593, 627, 632, 647, 670-771.
      Where the code first builds the prefix and then prints it with %s, the two formats
      are written as one. *)
  Definition item_format (e : ierror) : string :=
    match e with
    | INotMap => ": run item must be a mapping"
    | ITwoKinds => ": run item can only have one of 'cmd', 'task', 'log', or 'prompt'"
    | INoKind => ": run item must have 'cmd', 'task', 'log', 'prompt', or 'parallel'"
    | IDir => ": dir must be a string"
    | IPlatforms => ": invalid platforms"
    | IPlatform _ => ": invalid platform %q, must be one of: linux, darwin, windows"
    | ILevel _ => ": invalid log level %q, must be one of: debug, info, warn, error"
    | IOptions => ": invalid options"
    | IDefaults => ": invalid defaults"
    | IMin => ": invalid min value"
    | IMax => ": invalid max value"
    | IParSeq => ": parallel must be a sequence"
    | IModeStr => ": mode must be a string"
    | IMode _ => ": invalid mode %q, must be one of: interleaved, grouped"
    | ILimit => ": invalid limit value"
    | ILimitNeg => ": limit must be >= 0"
    | IUnknownKey _ => ": unknown key %q in parallel block"
    | IParEmpty => ": parallel must have at least one item"
    | IParPrompt => ": prompt items cannot be used inside parallel blocks"
    | IParNested => ": parallel items cannot be nested"
    | IName _ => ": invalid prompt variable name %q, must match pattern ^[a-zA-Z_][a-zA-Z0-9_]*$"
    | INoType => ": prompt %q: 'type' is required"
    | IType _ => ": prompt %q: invalid type %q, must be one of: confirm, input, select, multiselect, password, number"
    | INoMessage => ": prompt %q: 'message' is required"
    | INoOptions _ => ": prompt %q: 'options' is required for type %q"
    | INotInOptions _ => ": prompt %q: default value %q is not in options"
    | IMinMax _ _ => ": prompt %q: min (%d) cannot be greater than max (%d)"
    | IRegexp => ": prompt %q: invalid validate regex: %v"
    | IOptionsFor => ": prompt %q: 'options' is only valid for select/multiselect types"
    | IDefaultsFor => ": prompt %q: 'defaults' is only valid for multiselect type"
    | IValidateFor => ": prompt %q: 'validate' is only valid for input type"
    | IConfirmFor => ": prompt %q: 'confirm' is only valid for password type"
    | INotInteger _ => ": prompt %q: default value %q must be a valid integer for number type"
    end.
  Definition item_args (x : extra) (e : ierror) : list arg :=
    let p := AStr (x_prompt x) in
    match e with
    | IPlatform s | ILevel s | IMode s | IUnknownKey s | IName s => [AStr s]
    | INoType | INoMessage | IOptionsFor | IDefaultsFor | IValidateFor | IConfirmFor => [p]
    | IType s | INoOptions s | INotInOptions s | INotInteger s => [p; AStr s]
    | IMinMax lo hi => [p; ANum lo; ANum hi]
    | IRegexp => [p; AStr (x_regexp x)]
    | _ => []
    end.
  (** Lines 68, 83, 97, 112, 126, 132, 152, 179, 199, 232, 250, 271, 281, 298, 823, 833.
      The error of a repeated task is of another type, see [doc_error]. *)
  Definition doc_format (e : derror) : string :=
    match e with
    | DNotMap => "expected mapping at root"
    | DVarsMap => "vars must be a mapping"
    | DVarsValue _ => "vars value for %q must be a string"
    | DEnvMap => "env must be a mapping"
    | DEnvValue _ => "env value for %q must be a string"
    | DBool => "expected boolean value"
    | DDir => "dir must be a string"
    | DTasksMap => "tasks must be a mapping"
    | DIncludesMap => "includes must be a mapping"
    | DInclude _ => "include %q"
    | DDuplicate _ _ => ""
    | DTaskMap _ => "task %q: task must be a mapping"
    | DAliases _ => "task %q: invalid aliases"
    | DTaskDir _ => "task %q: dir must be a string"
    | DDeps _ => "task %q: invalid deps"
    | DRunSeq _ => "task %q: run must be a sequence"
    | DItem _ _ e => "task %q: run[%d]" ++ item_format e
    end.
  Definition doc_args (x : extra) (e : derror) : list arg :=
    match e with
    | DVarsValue s | DEnvValue s | DInclude s | DTaskMap s | DAliases s | DTaskDir s | DDeps s | DRunSeq s => [AStr s]
    | DItem t i e => AStr t :: num i :: item_args x e
    | _ => []
    end.
  (** An error of a document, as it is printed. *)
  Definition doc_error (x : extra) (path : str) (le : derr) : str :=
    match le.2 with
    | DDuplicate name original => duplicate_task_error path le.1 name original
    | e => parse_error path le.1 0 (sprintf (fmt (doc_format e)) (doc_args x e)) (if caused x e then Some (x_decode x) else None)
    end.

  (** ** The errors of internal/parser/validate.go *)

  (** validate.go 17-153: the errors found in all tasks together. [path] is that of the
      file the run was started with (parser.go 43), [tasks] the tasks; the line of the
      first task with the alias (line 47) is that of the task. *)
  Definition valid_error (h : heap) (path : str) (tasks : taskmap) (available : list str) (e : verr) : str :=
    match e with
    | VNotFound line name _ => not_found_error path line name available
    | VCircular chain _ => circular_error path (lit "dependency") (sl_read h chain)
    | VAliasConflict line alias name => alias_conflict_error path line alias name
    | VDuplicateAlias line alias name original =>
        duplicate_alias_error path line alias name original (match tasks !! original with Some t => t_line t | None => 0 end)
    end.
  End Errors.
End Quote.
