(** Asking a prompt: internal/tui/prompt.go.

    The forms themselves belong to the library charm.land/huh; here a form is a
    value that says what is shown and which answers its validation accepts, and
    [possible] is what we assume of the library: a submitted answer has the kind
    of the form, passed the form's validation, and is made of the offered
    options. Everything bab does around the forms is modelled. *)
From Verif Require Import Base Path_Model Types_Model Doc_Model.

(** The library functions bab calls, kept abstract: [strings.ToLower],
    [regexp.Compile] succeeding, and [Regexp.MatchString]. *)
Record prompt_lib := PromptLib {
  pl_lower : str -> str;
  pl_compiles : str -> bool;
  pl_matches : str -> str -> bool }.

(** How a prompt can fail: prompt.go 18 and 20, 46, the errors of huh, and the
    panic of [regexp.MustCompile] (line 123). Error texts are not modelled. *)
Inductive prompt_error := PCancelled | PNoTTY | PUnknown | PBroke | PPanic.

(** A form with one field: lines 91-95 (confirm), 114-132 (input; the last field
    is false for the hidden input of lines 212-215 and 227-236), 149-157 (select),
    177-200 (multiselect; each option with its mark). *)
Inductive form :=
| FConfirm (title : str) (init : bool)
| FInput (title init placeholder : str) (accept : str -> bool) (shown : bool)
| FSelect (title : str) (options : list str) (init : str)
| FMulti (title : str) (options : list (str * bool)) (accept : list str -> bool).

(** What [form.RunWithContext] leaves: the value and no error, or
    [huh.ErrUserAborted], or another error (a cancelled context, a broken terminal). *)
Inductive reply :=
| Yes (b : bool) | Text (s : str) | Picked (l : list str) | Aborted | Broke.

(** The contract of the library. *)
Inductive possible : form -> reply -> Prop :=
| possible_confirm t i b : possible (FConfirm t i) (Yes b)
| possible_input t i p ok sh s : ok s = true -> possible (FInput t i p ok sh) (Text s)
| possible_select t os i s : s ∈ os -> possible (FSelect t os i) (Text s)
| possible_multi t os ok l : l `sublist_of` map fst os -> ok l = true -> possible (FMulti t os ok) (Picked l)
| possible_abort f : possible f Aborted
| possible_broke f : possible f Broke.

(** A computation that shows forms. *)
Inductive dialog :=
| Answer (r : res prompt_error str)
| Show (f : form) (next : reply -> dialog).

(** Lines 96-101 and the four repetitions: a form that was not submitted. *)
Definition submitted (f : form) (k : reply -> dialog) : dialog :=
  Show f (fun o => match o with Aborted => Answer (Err PCancelled) | Broke => Answer (Err PBroke) | _ => k o end).

(** Lines 74-82. *)
Definition normalize_confirm (L : prompt_lib) (s : str) : str :=
  if bool_decide (pl_lower L s ∈ [lit "true"; lit "yes"; lit "y"; lit "1"]) then lit "true" else lit "false".

(** Lines 50-72. *)
Definition non_interactive (L : prompt_lib) (p : prompt_run) : res prompt_error str :=
  let t := p_type p in
  if bool_decide (t = lit "confirm") then
    match p_default p with [] => Err PNoTTY | d => Ok (normalize_confirm L d) end
  else if bool_decide (t ∈ [lit "input"; lit "select"; lit "number"]) then
    match p_default p with [] => Err PNoTTY | d => Ok d end
  else if bool_decide (t = lit "multiselect") then
    match p_defaults p with [] => Err PNoTTY | l => Ok (join_with (lit ",") l) end
  else Err PNoTTY.

(** Lines 84-106; the second use of the reply is [strconv.FormatBool]. *)
Definition run_confirm (L : prompt_lib) (p : prompt_run) (msg : str) : dialog :=
  let init := match p_default p with [] => false | d => bool_decide (normalize_confirm L d = lit "true") end in
  submitted (FConfirm msg init) (fun o =>
    Answer (Ok (match o with Yes true => lit "true" | _ => lit "false" end))).

(** The value bound to a text field; a field of another kind does not occur. *)
Definition text_of (o : reply) : str := match o with Text s => s | _ => [] end.
Definition picked_of (o : reply) : list str := match o with Picked l => l | _ => [] end.

(** Lines 108-141. *)
Definition run_input (L : prompt_lib) (p : prompt_run) (msg : str) : dialog :=
  match p_validate p with
  | [] => submitted (FInput msg (p_default p) (p_placeholder p) (fun _ => true) true) (fun o => Answer (Ok (text_of o)))
  | re =>
      if pl_compiles L re
      then submitted (FInput msg (p_default p) (p_placeholder p) (fun s => pl_matches L re s) true) (fun o => Answer (Ok (text_of o)))
      else Answer (Err PPanic)
  end.

(** Lines 143-168. *)
Definition run_select (p : prompt_run) (msg : str) : dialog :=
  submitted (FSelect msg (p_options p) (p_default p)) (fun o => Answer (Ok (text_of o))).

(** A lower and an upper limit: lines 187-192 and 268-273. *)
Definition in_limits (p : prompt_run) (n : Z) : bool :=
  match p_min p with Some lo => negb (bool_decide (n < lo)%Z) | None => true end &&
  match p_max p with Some hi => negb (bool_decide (hi < n)%Z) | None => true end.

(** Lines 170-207. *)
Definition run_multiselect (p : prompt_run) (msg : str) : dialog :=
  submitted (FMulti msg (map (fun o => (o, bool_decide (o ∈ p_defaults p))) (p_options p))
               (fun l => in_limits p (Z.of_nat (length l))))
    (fun o => Answer (Ok (join_with (lit ",") (picked_of o)))).

(** Lines 209-248. *)
Definition run_password (L : prompt_lib) (p : prompt_run) (msg : str) : dialog :=
  submitted (FInput msg [] [] (fun _ => true) false) (fun o =>
    let result := text_of o in
    match p_confirm p with
    | Some true =>
        submitted (FInput (lit "Confirm " ++ pl_lower L msg) [] [] (fun s => bool_decide (s = result)) false)
          (fun _ => Answer (Ok result))
    | _ => Answer (Ok result)
    end).

(** Lines 259-275. *)
Definition accept_number (p : prompt_run) (s : str) : bool :=
  match s with
  | [] => match p_default p with [] => false | _ => true end
  | _ => match atoi s with None => false | Some n => in_limits p n end
  end.

(** Lines 250-296. *)
Definition run_number (p : prompt_run) (msg : str) : dialog :=
  submitted (FInput msg (p_default p) (p_placeholder p) (accept_number p) true) (fun o => Answer (Ok (text_of o))).

(** Lines 27-48. *)
Definition run_prompt (L : prompt_lib) (terminal : bool) (p : prompt_run) (msg : str) : dialog :=
  if terminal then
    let t := p_type p in
    if bool_decide (t = lit "confirm") then run_confirm L p msg
    else if bool_decide (t = lit "input") then run_input L p msg
    else if bool_decide (t = lit "select") then run_select p msg
    else if bool_decide (t = lit "multiselect") then run_multiselect p msg
    else if bool_decide (t = lit "password") then run_password L p msg
    else if bool_decide (t = lit "number") then run_number p msg
    else Answer (Err PUnknown)
  else Answer (non_interactive L p).

(** [asked a dialogue r]: the dialogue of forms and what became of them, and the result. *)
Inductive asked : dialog -> list (form * reply) -> res prompt_error str -> Prop :=
| asked_answer r : asked (Answer r) [] r
| asked_show f k o d r : possible f o -> asked (k o) d r -> asked (Show f k) ((f, o) :: d) r.
