(** What the terminal gets from a run: the writers of parallel blocks together with the
    schedule of the runner. For runs without a TUI. *)
From Verif Require Import Base Types_Model Run_Model Label_Model Out_Model Dest_Spec Alone_Spec.

Global Instance stream_eq_dec : EqDecision stream. Proof. solve_decision. Defined.

(** parallel.go 152-153: each item of a block has a writer for each stream. [sc_part]: what
    the writer holds back, the start of a line (writer.go 71-74); [sc_tty]: all bytes that
    got to bab's own standard output and standard error. *)
Record screen := Screen { sc_part : stream -> spot -> str; sc_tty : stream -> str }.
(** writer.go 121-131: nothing held back yet. *)
Definition blank : screen := Screen (fun _ _ => []) (fun _ => []).
Definition set_part (s : stream) (w : spot) (b : str) (c : screen) : screen :=
  Screen (fun s' w' => if decide (s' = s /\ w' = w) then b else sc_part c s' w') (sc_tty c).
Definition type (s : stream) (d : str) (c : screen) : screen :=
  Screen (sc_part c) (fun s' => if decide (s' = s) then sc_tty c s' ++ d else sc_tty c s').

Section Screen.
  (** [style]: what lipgloss makes of the label of the item with this index (writer.go
      121-124; the blank after the label is passed along). [strip]: whether the writers of an
      item remove escape sequences (writer.go 64-69; parallel.go 81). [says]: the lines of bab's own messages, which are not
      modelled further; none when the message is not shown. *)
  Context (a : ansi_lib) (tasks : taskmap) (style : nat -> str -> str) (strip : spot -> bool) (says : event -> list str).

  (** parallel.go 71-79, 152-153, writer.go 121-124. *)
  Definition prefix_at (it : str * nat * nat) : str :=
    match tasks !! it.1.1 with
    | Some t => match t_run t !! it.1.2 with
                | Some (RPar o items) => style it.2 (label_prefix (item_label o items it.2) (max_label (block_labels o items)))
                | _ => []
                end
    | None => []
    end.
  (** writer.go 114-149 on top of 83-103, parallel.go 122-128: a writer cuts what it gets into
      lines and gives each, with the label in front, to the writer of the block around or,
      in the outermost one, to the stream of bab. Simplified: a call is one step (C72
      shows that the mutex of a block makes it one), and writing succeeds. *)
  Fixpoint put (s : stream) (w : spot) (data : str) (c : screen) : screen :=
    match w with
    | [] => type s data c
    | it :: w' =>
        let '(ls, b) := process (sc_part c s w) data in
        foldl (fun c l => put s w' (prefix_at it ++ shown a (strip w) l ++ [nl]) c) (set_part s w b c) ls
    end.
  (** writer.go 105-112. *)
  Definition flush_at (s : stream) (w : spot) (c : screen) : screen :=
    match w with
    | [] => c
    | it :: w' => foldl (fun c l => put s w' (prefix_at it ++ shown a (strip w) l ++ [nl]) c) (set_part s w [] c) (flush (sc_part c s w))
    end.

  (** How task [T] was reached (a ghost of its first claim). *)
  Fixpoint scope_of (h : hist) (T : str) : scope :=
    match h with
    | [] => []
    | OClaim T' s Fresh :: h' => if decide (T' = T) then s else scope_of h' T
    | _ :: h' => scope_of h' T
    end.
  (** parallel.go 312-325, runner.go 171-184, 321-327: bab's own line goes where the output of
      the commands of the same item goes. *)
  Definition line_spot (h : hist) (ev : event) : spot :=
    match ev with
    | OHeader T _ _ | OSummary T _ _ _ => around (scope_of h T)
    | OEcho T pa _ _ | OLog T pa _ _ _ => item_around T pa (scope_of h T)
    | _ => []
    end.
  Definition typed (ls : list str) : str := concat (map (fun l => l ++ [nl]) ls).
  (** What an event of the run does to the screen: bab's own lines (see [own_line]), and the
      flush when an item of a block has returned (parallel.go 155-157). *)
  Definition after (h : hist) (ev : event) (c : screen) : screen :=
    match ev with
    | OReturn T [i] j _ => let w := (T, i, j) :: around (scope_of h T) in flush_at SErr w (flush_at SOut w c)
    | _ => match own_line ev with Some (s, _) => put s (line_spot h ev) (typed (says ev)) c | None => c end
    end.

  (** Who wrote what, in order. *)
  Notation writes := (list (proc_info * stream * str)).
  Notation xstate := (hist * prog * screen * writes)%type.
  (** The run goes on, or a running command whose output is shown writes something
      (runner.go 474-506: its streams are the writers of its item). *)
  Inductive xstep (g : gmap str str) : xstate -> xstate -> Prop :=
  | x_run h p ev p' c o : cstep g (h, p) (ev :: h, p') -> xstep g (h, p, c, o) (ev :: h, p', after h ev c, o)
  | x_write h p c o x s data : OStart x true ∈ h -> (forall ok, OEnd (x_task x) (x_path x) ok ∉ h) -> x_show x = true ->
      xstep g (h, p, c, o) (h, p, put s (place x) data c, o ++ [(x, s, data)]).
  Definition xrun (k : config) (root : str) : xstate -> Prop :=
    rtc (xstep (k_vars k)) ([], run_with_tasks k tasks root, blank, []).
End Screen.
Notation writes := (list (proc_info * stream * str)).
