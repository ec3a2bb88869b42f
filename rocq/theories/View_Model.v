(** Drawing the displays of parallel blocks: internal/tui/parallel.go 182-209,
    internal/tui/parallel_grouped.go, internal/tui/parallel_tabs.go. *)
From Verif Require Import Base Types_Model Path_Model Cond_Model Out_Model.
Local Open Scope Z_scope.

(** The libraries: [s_width] is [ansi.StringWidth], [s_cut] is [ansi.Truncate] (text,
    width, tail), [s_style] is [Style.Render]; colours are left out. *)
Inductive style := StDim | StTitle | StGood | StBad.
Record screen := Screen { s_width : str -> Z; s_cut : str -> Z -> str -> str; s_style : style -> str -> str }.

(** UTF-8 of the signs. *)
Definition sg_cancelled : str := bytes [226; 138; 152]%nat.  (* U+2298 *)
Definition sg_failed : str := bytes [226; 156; 151]%nat.     (* U+2717 *)
Definition sg_ok : str := bytes [226; 156; 147]%nat.         (* U+2713 *)
Definition sg_waiting : str := bytes [226; 136; 153]%nat.    (* U+2219 *)
Definition sg_running : str := bytes [226; 151; 166]%nat.    (* U+25E6 *)
Definition sg_corner : str := bytes [226; 148; 140; 226; 148; 128]%nat. (* box drawing, U+250C U+2500 *)
Definition sg_side : str := bytes [226; 148; 130]%nat.       (* U+2502 *)
Definition sg_foot : str := bytes [226; 148; 148]%nat.       (* U+2514 *)
Definition sg_dots : str := bytes [226; 128; 166]%nat.       (* U+2026 *)

Section Draw.
  Context (S : screen).
  (** [errors.Is(err, context.Canceled)], on the error's text; what items are called. *)
  Context (is_cancel : str -> bool) (label : str -> str).

  (** parallel.go 188-193. *)
  Definition truncate_line (line : str) (max : Z) : str :=
    if (max <=? 0) || (s_width S line <=? max) then line else s_cut S line max [].

  (** parallel.go 195-209. *)
  Definition status_icon (it : item) (cancelled : bool) : str :=
    match i_done it, i_err it with
    | true, Some e => if is_cancel e then s_style S StDim sg_cancelled else s_style S StBad sg_failed
    | true, None => s_style S StGood sg_ok
    | false, _ => if cancelled then s_style S StDim sg_cancelled
                  else if i_started it then s_style S StDim sg_running else s_style S StDim sg_waiting
    end.

  (** ** Grouped *)
  Definition grouped_max : nat := 5.

  (** What a row is: the title of an item, its short form inside another one, one of
      its lines, an empty line of its box, the foot of the box. *)
  Inductive kind := KTitle | KShort | KLine (n : nat) | KPad | KFoot.
  Record row := Row { r_key : str; r_kind : kind; r_text : str }.

  (** [strings.TrimSpace] of the text is empty. *)
  Definition blank (s : str) : bool := match trim_space s with [] => true | _ => false end.
  (** parallel_grouped.go 109-115. *)
  Definition snippet (lines : list str) : str := default [] (head (List.filter (fun l => negb (blank l)) (rev lines))).

  (** parallel_grouped.go 97-128. *)
  Definition compact_line (cancelled : bool) (width : Z) (key : str) (it : item) (indent : str) : str :=
    let prefix := status_icon it cancelled ++ lit " " ++ s_style S StTitle (label key) in
    let plain := truncate_line (indent ++ prefix) width in
    match i_done it, i_err it with
    | true, None => plain
    | _, _ =>
        match snippet (i_lines it) with
        | [] => plain
        | sn =>
            let available := width - s_width S indent - s_width S prefix - 2 in
            if available <=? 0 then plain
            else
              let sn' := if available <? s_width S sn then s_cut S sn available sg_dots else sn in
              truncate_line (indent ++ prefix ++ lit "  " ++ s_style S StDim sn') width
        end
    end.

  (** parallel_grouped.go 75-89. *)
  Definition box_line (width : Z) (prefix line : str) : str :=
    let room := width - s_width S prefix in
    let line' := if (0 <? room) && (room <? s_width S line) then s_cut S line room [] else line in
    truncate_line (prefix ++ line') width.

  (** parallel_grouped.go 43-95; the recursion is bounded by [fuel]. *)
  Fixpoint render_item (fuel : nat) (v : display) (width : Z) (key indent : str) (depth : nat) : list row :=
    match fuel with
    | O => []
    | Datatypes.S fuel' =>
        match v_items v !! key with
        | None => []
        | Some it =>
            match depth with
            | Datatypes.S _ =>
                Row key KShort (compact_line (v_cancelled v) width key it indent) ::
                concat (map (fun ck => render_item fuel' v width ck (indent ++ lit "  ") (Datatypes.S depth)) (i_children it))
            | O =>
                let side := indent ++ s_style S StDim sg_side in
                Row key KTitle (truncate_line (indent ++ s_style S StDim sg_corner ++ lit " " ++ s_style S StTitle (label key) ++ lit " " ++ status_icon it (v_cancelled v)) width) ::
                match i_children it with
                | [] =>
                    imap (fun n line => Row key (KLine n) (box_line width (side ++ lit "  ") line)) (i_lines it) ++
                    (if negb (i_done it) && (0 <? length (i_lines it))%nat && (length (i_lines it) <? grouped_max)%nat
                     then repeat (Row key KPad (truncate_line side width)) (grouped_max - length (i_lines it)) else [])
                | cs => concat (map (fun ck => render_item fuel' v width ck (side ++ lit "  ") 1) cs)
                end ++ [Row key KFoot (truncate_line (indent ++ s_style S StDim sg_foot) width)]
            end
        end
    end.

  (** parallel_grouped.go 32-41. The texts of the rows are joined with newlines; a
      display that is done shows a single blank. *)
  Definition grouped_rows (v : display) (width : Z) : list row :=
    concat (map (fun k => render_item (Datatypes.S (size (v_items v))) v width k [] 0) (v_roots v)).
  Definition grouped_view (v : display) (width : Z) : str :=
    if v_done v then lit " " else join_with [nl] (map r_text (grouped_rows v width)).

  (** ** Tabs *)

  (** parallel_tabs.go 14-18. Of the viewport only its content is kept; where it is
      scrolled to belongs to the library. *)
  Record tabs := Tabs { tb_disp : display; tb_active : Z; tb_width : Z; tb_height : Z; tb_content : str }.
  (** parallel_tabs.go 20-25, parallel.go 89-95. *)
  Definition new_tabs (n : nat) : tabs := Tabs (new_display n 0) 0 80 0 [].

  (** parallel_tabs.go 198-230. *)
  Definition child_line (v : display) (width : Z) (ck : str) : option str :=
    match v_items v !! ck with
    | None => None
    | Some it =>
        let line := status_icon it (v_cancelled v) ++ lit " " ++ s_style S StTitle (label ck) in
        let line' :=
          match i_done it, i_err it with
          | true, Some e => line ++ lit "  " ++ s_style S StBad e
          | _, _ => match last (i_lines it) with
                    | Some l => if blank l then line else line ++ lit "  " ++ s_style S StDim l
                    | None => line
                    end
          end in
        Some (truncate_line line' width)
    end.
  Definition build_content (v : display) (it : item) (width : Z) : str :=
    match i_children it with
    | [] => match i_lines it with
            | [] => if i_started it then s_style S StDim (lit "Running" ++ sg_dots) else s_style S StDim (lit "Waiting" ++ sg_dots)
            | ls => join_with [nl] ls
            end
    | cs => join_with [nl] (omap (child_line v width) cs)
    end.

  (** parallel_tabs.go 70-106. *)
  Definition clamp (n : nat) (a : Z) : Z :=
    let a1 := if a <? 0 then 0 else a in if Z.of_nat n <=? a1 then Z.of_nat n - 1 else a1.
  Definition content_width (width : Z) : Z := if width - 2 <? 1 then 1 else width - 2.
  Definition update_viewport (t : tabs) : tabs :=
    let v := tb_disp t in
    match v_roots v with
    | [] => t
    | roots =>
        let a := clamp (length roots) (tb_active t) in
        let content := match roots !! Z.to_nat a ≫= fun k => v_items v !! k with
                       | None => []
                       | Some it => build_content v it (content_width (tb_width t))
                       end in
        Tabs v a (tb_width t) (tb_height t) content
    end.

  (** parallel_tabs.go 31-60, parallel.go 101-169. [EOther]: any other message, it goes
      to the viewport. *)
  Inductive event := EMsg (m : msg) | ESize (w h : Z) | ETab | EShiftTab | EOther.
  Definition tabs_step (t : tabs) (e : event) : tabs :=
    match e with
    | EMsg m =>
        let t' := Tabs (handle (tb_disp t) m) (tb_active t) (tb_width t) (tb_height t) (tb_content t) in
        match m with MAllDone | MCtrlC => t' | _ => update_viewport t' end
    | ESize w h => update_viewport (Tabs (tb_disp t) (tb_active t) w h (tb_content t))
    | ETab | EShiftTab =>
        match v_roots (tb_disp t) with
        | [] => t
        | roots =>
            let n := Z.of_nat (length roots) in
            let a := match e with ETab => Z.rem (tb_active t + 1) n | _ => Z.rem (tb_active t - 1 + n) n end in
            update_viewport (Tabs (tb_disp t) a (tb_width t) (tb_height t) (tb_content t))
        end
    | EOther => t
    end.
  Definition tabs_after (n : nat) (es : list event) : tabs := fold_left tabs_step es (new_tabs n).
End Draw.
