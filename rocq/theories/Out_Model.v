(** Output of parallel items: internal/runner/writer.go, the keys and colours of
    internal/runner/parallel.go, and the state of the displays,
    internal/tui/parallel.go. *)
From Verif Require Import Base Utf8_Model.

Definition nl : ascii := "010"%char.
Definition cr : ascii := "013"%char.
Definition esc : ascii := "027"%char.

(** ** One line *)

(** writer.go 60-62. *)
Definition unsafe_control (r : N) : bool := (r <? 32)%N && negb (r =? 9)%N && negb (r =? 27)%N.

(** writer.go 46-58. *)
Definition strip_control (s : str) : str :=
  if existsb unsafe_control (runes s) then of_runes (List.filter (fun r => negb (unsafe_control r)) (runes s)) else s.

(** What [ansi.DecodeSequence] calls the pieces of a line: a CSI sequence ending in
    [m], another CSI sequence, an OSC, ESC, DCS or APC sequence, anything else. *)
Inductive piece := PStyle | PCsi | PEscape | PText.

(** The library github.com/charmbracelet/x/ansi is not part of the repository: it is
    an arbitrary function here. [a_pieces]: repeated [DecodeSequence]; [a_strip]:
    [ansi.Strip]. *)
Record ansi_lib := AnsiLib { a_pieces : str -> list (piece * str); a_strip : str -> str }.

Fixpoint contains (p s : str) : bool :=
  has_prefix p s || match s with [] => false | _ :: s' => contains p s' end.

(** writer.go 18-44. *)
Definition sanitize_line (a : ansi_lib) (line : str) : str :=
  if negb (contains [esc] line) && negb (contains (encode_rune 155) line) then strip_control line
  else strip_control (concat (map (fun p => match p.1 with PStyle | PText => p.2 | _ => [] end) (a_pieces a line))).

(** writer.go 64-69. *)
Definition clean_line (a : ansi_lib) (strip : bool) (line : str) : str :=
  if strip then a_strip a line else sanitize_line a line.

(** writer.go 76-81: [strings.LastIndexByte]. *)
Fixpoint resolve_cr (raw : str) : str :=
  match raw with
  | [] => []
  | c :: r => if decide (cr ∈ r) then resolve_cr r else if decide (c = cr) then r else raw
  end.

Definition shown (a : ansi_lib) (strip : bool) (raw : str) : str := clean_line a strip (resolve_cr raw).

(** ** Lines of a stream *)

(** writer.go 83-103: the lines emitted, and what stays in [partial]. Emitting is
    taken to succeed; a failing destination ends the command's output. *)
Fixpoint process_loop (fuel : nat) (buf : str) : list str * str :=
  match fuel with
  | 0 => ([], buf)
  | S fuel' =>
      match span (fun c => negb (bool_decide (c = nl))) buf with
      | (_, []) => ([], buf)
      | (line, _ :: rest) => let '(ls, p) := process_loop fuel' rest in (line :: ls, p)
      end
  end.
Definition process (partial data : str) : list str * str :=
  process_loop (length (partial ++ data)) (partial ++ data).
(** writer.go 105-112. *)
Definition flush (partial : str) : list str := match partial with [] => [] | _ => [partial] end.

Inductive wop := WWrite (data : str) | WFlush.
(** The raw lines of one call, and the new partial line. *)
Definition wcall (partial : str) (o : wop) : list str * str :=
  match o with
  | WWrite data => process partial data
  | WFlush => (flush partial, [])
  end.
Fixpoint wcalls (partial : str) (ops : list wop) : list str * str :=
  match ops with
  | [] => ([], partial)
  | o :: r => let '(l1, p1) := wcall partial o in let '(l2, p2) := wcalls p1 r in (l1 ++ l2, p2)
  end.

(** ** Several writers on shared destinations (writer.go 114-149, parallel.go 124-133,
    152-155): one mutex for all writers of a block. A call holds it from its first
    to its last byte; the bytes of [Fprintln] may reach the destination one by one. *)
Record writer := Writer { w_prefix : str; w_to : nat; w_stripped : bool }.
Record wstate := WState { s_todo : list wop; s_partial : str; s_pending : str }.
Record out_state := OutState { s_lock : option nat; s_writers : list wstate; s_dest : nat -> str }.

Definition line_bytes (a : ansi_lib) (w : writer) (raw : str) : str := w_prefix w ++ shown a (w_stripped w) raw ++ [nl].

Inductive out_step (a : ansi_lib) (ws : list writer) : out_state -> out_state -> Prop :=
| o_lock l d i w o todo p ls p' :
    ws !! i = Some w -> l !! i = Some (WState (o :: todo) p []) -> wcall p o = (ls, p') ->
    out_step a ws (OutState None l d) (OutState (Some i) (<[i := WState todo p' (concat (map (line_bytes a w) ls))]> l) d)
| o_byte l d i w todo p c rest :
    ws !! i = Some w -> l !! i = Some (WState todo p (c :: rest)) ->
    out_step a ws (OutState (Some i) l d)
      (OutState (Some i) (<[i := WState todo p rest]> l) (fun e => if decide (e = w_to w) then d e ++ [c] else d e))
| o_unlock l d i todo p :
    l !! i = Some (WState todo p []) ->
    out_step a ws (OutState (Some i) l d) (OutState None l d).

Definition out_start (opss : list (list wop)) : out_state :=
  OutState None (map (fun ops => WState ops [] []) opss) (fun _ => []).

(** ** Keys (parallel.go 26-32, tui/parallel.go 97-99) *)

(** [strconv.Itoa] of a number that is not negative. *)
Definition digit (n : nat) : ascii := ascii_of_nat (48 + n).
Fixpoint itoa_fuel (fuel n : nat) : str :=
  match fuel with
  | 0 => []
  | S f => if n <? 10 then [digit n] else itoa_fuel f (n / 10) ++ [digit (n mod 10)]
  end.
Definition itoa (n : nat) : str := itoa_fuel (S n) n.
Fixpoint join_dots (l : list str) : str :=
  match l with [] => [] | [x] => x | x :: r => x ++ "."%char :: join_dots r end.
Definition path_to_key (path : list nat) : str := join_dots (map itoa path).
Definition item_key (i : nat) : str := itoa i.

(** ** Colours (writer.go 184-220, theme.go 18-27) *)
Definition base_colors : list nat := [212; 43; 141; 220; 82; 208; 51; 199].
Definition dim1 (c : nat) : nat := c * 3 / 5.
Fixpoint iter_dim (steps c : nat) : nat := match steps with 0 => c | S n => iter_dim n (dim1 c) end.
Definition dim_color (code steps : nat) : nat :=
  if (code <? 16) || (231 <? code) then code
  else
    let ci := code - 16 in
    16 + 36 * iter_dim steps (ci / 36) + 6 * iter_dim steps (ci mod 36 / 6) + iter_dim steps (ci mod 6).
Definition color_for_path (path : list nat) : nat :=
  match path with
  | [] => nth 0 base_colors 0
  | i :: rest =>
      let base := nth (i mod length base_colors) base_colors 0 in
      match rest with [] => base | _ => dim_color base (length rest) end
  end.

(** ** The state of a display (tui/parallel.go 58-180). Colours, labels and the window
    size are left out; an error is what [Done] carries. *)
Record item := Item { i_lines : list str; i_started : bool; i_done : bool; i_err : option str; i_children : list str }.
Definition fresh : item := Item [] false false None [].

Inductive msg :=
| MRegister (key parent : str)
| MStart (key : str)
| MOutput (key line : str)
| MDone (key : str) (err : option str)
| MClear (key : str)
| MAllDone
| MCtrlC.

Record display := Display { v_items : gmap str item; v_roots : list str; v_max : nat; v_done : bool; v_cancelled : bool }.

(** tui/parallel.go 77-95. *)
Definition new_display (n max : nat) : display :=
  let roots := map item_key (seq 0 n) in
  Display (list_to_map (map (fun k => (k, fresh)) roots)) roots max false false.

(** tui/parallel.go 171-180. The recursion is bounded by [fuel]. *)
Fixpoint remove_tree (fuel : nat) (key : str) (m : gmap str item) : gmap str item :=
  match fuel with
  | 0 => m
  | S fuel' =>
      let m' := match m !! key with Some it => fold_left (fun m ck => remove_tree fuel' ck m) (i_children it) m | None => m end in
      delete key m'
  end.

(** The last [max] lines, all of them if [max] is 0 (lines 130-132). *)
Definition keep_last (max : nat) (l : list str) : list str :=
  if (0 <? max) && (max <? length l) then drop (length l - max) l else l.

(** tui/parallel.go 101-169. *)
Definition handle (v : display) (m : msg) : display :=
  let set items := Display items (v_roots v) (v_max v) (v_done v) (v_cancelled v) in
  let items := v_items v in
  match m with
  | MRegister key parent =>
      let items1 := <[key := fresh]> items in
      match parent with
      | [] => set items1
      | _ => match items1 !! parent with
             | Some p => set (<[parent := Item [] (i_started p) (i_done p) (i_err p) (i_children p ++ [key])]> items1)
             | None => set items1
             end
      end
  | MStart key =>
      match items !! key with
      | Some it => set (<[key := Item (i_lines it) true (i_done it) (i_err it) (i_children it)]> items)
      | None => v
      end
  | MOutput key line =>
      match items !! key with
      | Some it => set (<[key := Item (keep_last (v_max v) (i_lines it ++ [line])) (i_started it) (i_done it) (i_err it) (i_children it)]> items)
      | None => v
      end
  | MDone key err =>
      match items !! key with
      | Some it => set (<[key := Item (i_lines it) (i_started it) true err (i_children it)]> items)
      | None => v
      end
  | MClear key =>
      match items !! key with
      | Some it =>
          let items1 := fold_left (fun m ck => remove_tree (S (size items)) ck m) (i_children it) items in
          (* [item] is still the old pointer, also if it was removed *)
          match items1 !! key with
          | Some _ => set (<[key := Item (i_lines it) (i_started it) (i_done it) (i_err it) []]> items1)
          | None => set items1
          end
      | None => v
      end
  | MAllDone => Display items (v_roots v) (v_max v) true (v_cancelled v)
  | MCtrlC => Display items (v_roots v) (v_max v) (v_done v) true
  end.
Definition handle_all (v : display) (ms : list msg) : display := fold_left handle ms v.

(** ** What blocks send to a display (parallel.go 168-295) *)

(** Lines 179-182, 233-236 with [pathToKey]: the key of an item of the block run by
    item [k]. *)
Definition child (k : str) (i : nat) : str := k ++ "."%char :: itoa i.

(** The messages of several goroutines, mixed in any way. *)
Inductive mix : list (list msg) -> list msg -> Prop :=
| mix_done ts : Forall (fun t => t = []) ts -> mix ts []
| mix_step ts i m t ms : ts !! i = Some (m :: t) -> mix (<[i := t]> ts) ms -> mix ts (m :: ms).

(** [item_msgs k t]: what the goroutine of item [k] sends (lines 230-276). An item
    waiting for a slot may be cancelled before it starts; otherwise there are lines of
    output (writer.go 151-182) and blocks run one after the other by the item's task.
    [block_msgs]: a block run by item [k] announces its items (lines 173-188), waits
    for them and clears them (lines 279-283); the summary it may add (lines 292-295)
    is a line of output. Which error [Done] carries is left open. *)
Inductive item_msgs : str -> list msg -> Prop :=
| im_cancelled k e : item_msgs k [MDone k e]
| im_run k body e : body_msgs k body -> item_msgs k (MStart k :: body ++ [MDone k e])
with body_msgs : str -> list msg -> Prop :=
| bm_nil k : body_msgs k []
| bm_line k line t : body_msgs k t -> body_msgs k (MOutput k line :: t)
| bm_block k ts ms t : items_msgs k 0 ts -> mix ts ms -> body_msgs k t ->
    body_msgs k (map (fun i => MRegister (child k i) k) (seq 0 (length ts)) ++ ms ++ MClear k :: t)
with items_msgs : str -> nat -> list (list msg) -> Prop :=
| ims_nil k i : items_msgs k i []
| ims_cons k i t ts : item_msgs (child k i) t -> items_msgs k (S i) ts -> items_msgs k i (t :: ts).

(** The outermost block: its items are in the display from the start; at the end it
    sends [AllDone] (lines 189-214, 285-288). *)
Definition run_msgs (ts : list (list msg)) (ms : list msg) : Prop :=
  (forall i t, ts !! i = Some t -> item_msgs (item_key i) t) /\ exists ms0, mix ts ms0 /\ ms = ms0 ++ [MAllDone].
