(** The interactive task picker: internal/tui/picker (model.go, match.go, update.go,
    view.go) and internal/tui/tui.go. *)
From Verif Require Import Base StrOrder Types_Model.
Local Open Scope Z_scope.

(** The library github.com/sahilm/fuzzy is not part of the repository: [fz_find] is
    [fuzzy.Find], giving index, matched positions and score of each match. *)
Record fuzzy := Fuzzy { fz_find : str -> list str -> list (nat * list nat * Z) }.

(** match.go 17-23. *)
Record pmatch := PMatch { m_task : task; m_name_idx : list nat; m_alias_idx : list nat; m_alias : str; m_score : Z }.

(** match.go 91-110. *)
Definition search_aliases (f : fuzzy) (query : str) (t : task) : str * list nat * bool :=
  let aliases := get_all_aliases t in
  match aliases with
  | [] => ([], [], false)
  | _ =>
      if decide (query ∈ aliases) then (query, [], true)
      else match fz_find f query aliases with
           | (i, idx, _) :: _ => (nth i aliases [], idx, false)
           | [] => ([], [], false)
           end
  end.

(** match.go 38-44: [nameMatchMap] and [nameScoreMap]. *)
Definition name_map (f : fuzzy) (query : str) (tasks : list task) : gmap nat (list nat * Z) :=
  fold_left (fun m x => let '(i, idx, sc) := x in <[i := (idx, sc)]> m) (fz_find f query (map t_name tasks)) ∅.

(** match.go 49-67: the match of a task by alias, if any. *)
Definition by_alias (f : fuzzy) (query : str) (nm : gmap nat (list nat * Z)) (i : nat) (t : task) : option pmatch :=
  let '(alias, idx, exact) := search_aliases f query t in
  match alias with
  | [] => None
  | _ => Some (PMatch t (match nm !! i with Some x => x.1 | None => [] end) idx alias
                 (if exact : bool then 1000 else match idx with [] => 500 | _ => 500 + Z.of_nat (length idx) end))
  end.
(** match.go 69-80: by name, for the others. *)
Definition by_name (f : fuzzy) (query : str) (nm : gmap nat (list nat * Z)) (i : nat) (t : task) : option pmatch :=
  match by_alias f query nm i t with
  | Some _ => None
  | None => match nm !! i with Some (idx, sc) => Some (PMatch t idx [] [] sc) | None => None end
  end.
Definition unsorted (f : fuzzy) (query : str) (tasks : list task) : list pmatch :=
  let nm := name_map f query tasks in
  omap id (imap (by_alias f query nm) tasks) ++ omap id (imap (by_name f query nm) tasks).

(** match.go 82-87: [sort.Slice] with this order. Its result for equal elements is
    unspecified; [merge_sort] is one of the possible results. *)
Definition match_le (a b : pmatch) : Prop :=
  m_score a > m_score b \/ (m_score a = m_score b /\ str_le (t_name (m_task a)) (t_name (m_task b))).
Global Instance match_le_dec a b : Decision (match_le a b).
Proof. unfold match_le. apply _. Defined.

(** match.go 25-89. *)
Definition search (f : fuzzy) (query : str) (tasks : list task) : list pmatch :=
  match query with
  | [] => map (fun t => PMatch t [] [] [] 0) tasks
  | _ => merge_sort match_le (unsorted f query tasks)
  end.

(** model.go 12-24; the styles and the width play no role. *)
Record picker := Picker {
  k_query : str; k_tasks : list task; k_matches : list pmatch; k_cursor : Z; k_offset : Z;
  k_selected : option task; k_quitting : bool; k_height : Z }.

Definition name_le (a b : task) : Prop := str_le (t_name a) (t_name b).
Global Instance name_le_dec a b : Decision (name_le a b).
Proof. unfold name_le. apply _. Defined.

(** model.go 26-50; [order] is the iteration order of the map of tasks. *)
Definition new_picker (f : fuzzy) (tasks : taskmap) (order : list str) : picker :=
  let list := merge_sort name_le (omap (fun n => tasks !! n) order) in
  Picker [] list (search f [] list) 0 0 None false 20.

(** model.go 76-78; [headerLines] is 4. *)
Definition visible_lines (m : picker) : Z := Z.max 1 (k_height m - 4).

(** model.go 62-74. *)
Definition adjust_scroll (m : picker) : picker :=
  let visible := visible_lines m in
  let total := Z.of_nat (length (k_matches m)) in
  let max_offset := Z.max 0 (total - visible) in
  let offset :=
    if k_cursor m <? k_offset m then k_cursor m
    else if k_offset m + visible <=? k_cursor m then k_cursor m - visible + 1
    else k_offset m in
  Picker (k_query m) (k_tasks m) (k_matches m) (k_cursor m) (Z.min offset max_offset) (k_selected m) (k_quitting m) (k_height m).

(** model.go 57-60. *)
Definition move_cursor (delta : Z) (m : picker) : picker :=
  adjust_scroll (Picker (k_query m) (k_tasks m) (k_matches m)
    (Z.max 0 (Z.min (k_cursor m + delta) (Z.of_nat (length (k_matches m)) - 1)))
    (k_offset m) (k_selected m) (k_quitting m) (k_height m)).

(** model.go 51-55 with a new text in the input field. *)
Definition set_query (f : fuzzy) (q : str) (m : picker) : picker :=
  Picker q (k_tasks m) (search f q (k_tasks m)) 0 0 (k_selected m) (k_quitting m) (k_height m).

(** Keys by their meaning; any other message goes to the input field, after which
    its text is [q]. *)
Inductive pevent := KCancel | KEnter | KUp | KDown | KClear | KResize (height : Z) | KType (q : str).

Definition quit (m : picker) (sel : option task) : picker :=
  Picker (k_query m) (k_tasks m) (k_matches m) (k_cursor m) (k_offset m) sel true (k_height m).

(** update.go 9-47. *)
Definition pick_update (f : fuzzy) (e : pevent) (m : picker) : picker :=
  match e with
  | KCancel => quit m (k_selected m)
  | KEnter =>
      quit m (if k_cursor m <? Z.of_nat (length (k_matches m))
              then m_task <$> k_matches m !! Z.to_nat (k_cursor m)
              else k_selected m)
  | KUp => move_cursor (-1) m
  | KDown => move_cursor 1 m
  | KClear => set_query f [] m
  | KResize h => adjust_scroll (Picker (k_query m) (k_tasks m) (k_matches m) (k_cursor m) (k_offset m) (k_selected m) (k_quitting m) h)
  | KType q => if decide (q = k_query m) then m else set_query f q m
  end.
Definition pick_all (f : fuzzy) (m : picker) (es : list pevent) : picker := fold_left (fun m e => pick_update f e m) es m.

(** view.go 29-33: the matches that are drawn. *)
Definition drawn (m : picker) : list pmatch :=
  let last := Z.min (k_offset m + visible_lines m) (Z.of_nat (length (k_matches m))) in
  take (Z.to_nat (last - k_offset m)) (drop (Z.to_nat (k_offset m)) (k_matches m)).
