(** How the picker draws its list: internal/tui/picker/match.go 112-180 and
    internal/tui/picker/view.go. A drawn text is a list of pieces, each with the style
    it is rendered in; what [Style.Render] adds (colours) is left out. *)
From Verif Require Import Base Types_Model Path_Model Cond_Model Utf8_Model Pick_Model.

(** styles.go: [taskNameStyle], [taskNameSelectedStyle], [matchStyle], [aliasStyle],
    [aliasMatchStyle], [descStyle], [selectedIndicator]; [LPlain] is unstyled. *)
Inductive look := LName | LSelected | LHit | LAlias | LAliasHit | LDesc | LCursor | LPlain.
Notation piece := (look * str)%type.

(** match.go 125-141: the loop over the runes with their byte offsets; [b] are the
    pieces written so far, [run] the piece being collected, [prev] and [first] as there. *)
Fixpoint highlight_loop (base hl : look) (idx : list nat) (off : nat) (us : list (N * str)) (b : list piece) (run : str) (prev first : bool) : list piece * str * bool :=
  match us with
  | [] => (b, run, prev)
  | (r, bs) :: us' =>
      let is_hl := bool_decide (off ∈ idx) in
      let '(b', run') :=
        if negb first && negb (Bool.eqb is_hl prev)
        then (b ++ [(if prev then hl else base, run)], [])
        else (b, run) in
      highlight_loop base hl idx (off + length bs) us' b' (run' ++ encode_rune r) is_hl false
  end.
(** match.go 112-149. *)
Definition highlight (text : str) (idx : list nat) (base hl : look) : list piece :=
  match idx with
  | [] => [(base, text)]
  | _ =>
      let '(b, run, prev) := highlight_loop base hl idx 0 (units text) [] [] false true in
      match run with [] => b | _ => b ++ [(if prev then hl else base, run)] end
  end.

(** [strings.Index]. *)
Fixpoint str_index (s sub : str) : option nat :=
  if has_prefix sub s then Some 0
  else match s with [] => None | _ :: s' => S <$> str_index s' sub end.

(** match.go 151-180; the loop over [allAliases] stops at the first that is the matched
    one and occurs in the text. *)
Definition highlight_alias (text matched : str) (all : list str) : list piece :=
  let start := head (omap (fun a => if decide (a = matched) then str_index text a else None) all) in
  match start with
  | None => [(LAlias, text)]
  | Some i =>
      let e := i + length matched in
      (if 0 <? i then [(LAlias, take i text)] else []) ++
      [(LAliasHit, take (length matched) (drop i text))] ++
      (if e <? length text then [(LAlias, drop e text)] else [])
  end.

(** view.go 51-84. *)
Definition alias_text (aliases : list str) : str := lit " (" ++ join_with (lit ", ") aliases ++ lit ")".
Definition cursor_sign : str := bytes [226; 148; 130; 32].
Definition draw_line (m : pmatch) (selected : bool) : list piece :=
  (if selected then [(LCursor, cursor_sign)] else [(LPlain, lit "  ")]) ++
  highlight (t_name (m_task m)) (m_name_idx m) (if selected then LSelected else LName) LHit ++
  match get_all_aliases (m_task m) with
  | [] => []
  | aliases => match m_alias m with
               | [] => [(LAlias, alias_text aliases)]
               | a => highlight_alias (alias_text aliases) a aliases
               end
  end ++
  match t_desc (m_task m) with [] => [] | d => [(LPlain, lit "  "); (LDesc, d)] end.

(** view.go 9-36 below the separator: the lines of the list. *)
Definition no_results : list piece := [(LPlain, lit "  No matching tasks :(")].
Definition draw_list (k : picker) : list (list piece) :=
  if k_quitting k then []
  else match k_matches k with
       | [] => [no_results]
       | _ => imap (fun j m => draw_line m (bool_decide (Z.of_nat j + k_offset k = k_cursor k)%Z)) (drawn k)
       end.
