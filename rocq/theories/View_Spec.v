(** What the displays of parallel blocks are to show. *)
From Verif Require Import Base Out_Model View_Model.

(** The items below [k], each before its children, children in the order they were
    registered. *)
Inductive walk (m : gmap str item) : str -> list str -> Prop :=
| walk_item k it ls : m !! k = Some it -> Forall2 (walk m) (i_children it) ls -> walk m k (k :: concat ls).

(** The items a view names, from top to bottom. *)
Definition heads (rs : list row) : list str :=
  map r_key (List.filter (fun r => match r_kind r with KTitle | KShort => true | _ => false end) rs).
(** The rows that show output lines of [k], and all the rows about it. *)
Definition line_rows (k : str) (rs : list row) : list row :=
  List.filter (fun r => bool_decide (r_key r = k) && match r_kind r with KLine _ => true | _ => false end) rs.
Definition rows_of (k : str) (rs : list row) : list row := List.filter (fun r => bool_decide (r_key r = k)) rs.

(** Cutting a text to [n] columns gives a text that fits in [n] columns. *)
Definition cuts_well (S : screen) : Prop := forall s n, (0 < n)%Z -> (s_width S (s_cut S s n []) <= n)%Z.

Global Instance msg_eq_dec : EqDecision msg.
Proof. solve_decision. Defined.
(** The mark of an item, from what was sent about it. *)
Inductive mark := Waiting | Running | Succeeded | Failed | Cancelled.
Definition mark_of (is_cancel : str -> bool) (cancelled started : bool) (done : option (option str)) : mark :=
  match done with
  | Some None => Succeeded
  | Some (Some e) => if is_cancel e then Cancelled else Failed
  | None => if cancelled then Cancelled else if started then Running else Waiting
  end.
Definition sign (m : mark) : str :=
  match m with Waiting => lit "∙" | Running => lit "◦" | Succeeded => lit "✓" | Failed => lit "✗" | Cancelled => lit "⊘" end.
Definition sign_style (m : mark) : style := match m with Succeeded => StGood | Failed => StBad | _ => StDim end.

(** Tabs: the messages among the events, and the number of steps to the right. *)
Definition sent (es : list event) : list msg := omap (fun e => match e with EMsg m => Some m | _ => None end) es.
Fixpoint moves (es : list event) : Z :=
  match es with
  | [] => 0
  | ETab :: es => 1 + moves es
  | EShiftTab :: es => -1 + moves es
  | _ :: es => moves es
  end%Z.
(** The events after which the shown text is made anew. *)
Definition redraws (e : event) : bool :=
  match e with EMsg MAllDone | EMsg MCtrlC | EOther => false | _ => true end.
