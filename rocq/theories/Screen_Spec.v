(** What should be on the terminal, said without the writers. *)
From Verif Require Import Base Types_Model Run_Model Run_Spec Out_Model Out_Spec Dest_Spec Alone_Spec Label_Model Screen_Model.

(** A line is written by a command, known by its task and item, or by bab itself. *)
Inductive author := ByCommand (T : str) (pa : list nat) | ByBab (ev : event).
(** One line on a stream: who wrote it, in which item, and the text as written. *)
Record entry := Entry { e_by : author; e_in : spot; e_text : str }.

Definition by_command (T : str) (pa : list nat) (log : list entry) : list str :=
  omap (fun e => match e_by e with ByCommand T' pa' => if decide (T' = T /\ pa' = pa) then Some (e_text e) else None | ByBab _ => None end) log.
Definition by_bab (log : list entry) : list (event * str) :=
  omap (fun e => match e_by e with ByBab ev => Some (ev, e_text e) | ByCommand _ _ => None end) log.

(** All that the command of an item wrote on a stream. *)
Definition wrote (T : str) (pa : list nat) (s : stream) (o : writes) : str :=
  concat (map (fun e : proc_info * stream * str => if decide (x_task e.1.1 = T /\ x_path e.1.1 = pa /\ e.1.2 = s) then e.2 else []) o).

(** The lines bab itself has to write on [s], oldest first. *)
Definition own_lines (says : event -> list str) (s : stream) (h : hist) : list (event * str) :=
  flat_map (fun ev => match own_line ev with Some (s', _) => if decide (s' = s) then map (pair ev) (says ev) else [] | None => [] end) (rev h).

Section Form.
  Context (a : ansi_lib) (tasks : taskmap) (style : nat -> str -> str) (strip : spot -> bool).
  (** The label of an item of a block. *)
  Inductive labelled : str * nat * nat -> str -> Prop :=
  | labelled_item T t i j o items : tasks !! T = Some t -> t_run t !! i = Some (RPar o items) -> j < length items ->
      labelled (T, i, j) (style j (label_prefix (item_label o items j) (max_label (block_labels o items)))).
  (** How a line of an item comes to the terminal: cleaned and with the label of each block
      around it in front, the outermost one first. *)
  Inductive carried : spot -> str -> str -> Prop :=
  | carried_none l : carried [] l l
  | carried_item it w l pre out : labelled it pre -> carried w (pre ++ shown a (strip (it :: w)) l) out -> carried (it :: w) l out.
End Form.

(** The command has ended. *)
Definition ended (h : hist) (x : proc_info) : Prop := exists ok, OEnd (x_task x) (x_path x) ok ∈ h.
(** Commands outside of blocks, and those of tasks, that have ended wrote whole lines. What
    an item of a block writes itself may be unfinished: its last line is then ended by bab. *)
Definition tidy (h : hist) (o : writes) : Prop :=
  forall x i s, OStart x true ∈ h -> x_path x = [i] -> ended h x ->
    wrote (x_task x) [i] s o = [] \/ exists d, wrote (x_task x) [i] s o = d ++ [nl].
(** Who a line may be from: a command that was started, or bab itself; and its item is the
    one the command or the message is in. Dry runs have no items. *)
Definition from (h : hist) (s : stream) (e : entry) : Prop :=
  match e_by e with
  | ByCommand T pa => exists x, OStart x true ∈ h /\ x_task x = T /\ x_path x = pa /\ e_in e = place x
  | ByBab ev => ev ∈ h /\ (exists d, own_line ev = Some (s, d)) /\
      (spot_of (fun e => e ∈ h) ev (e_in e) \/ exists T pa w, ev = OWould T pa w /\ e_in e = [])
  end.
(** The frames of a destination are the labels of these items. *)
Definition frame_of (tasks : taskmap) (f : wframe) (it : str * nat * nat) : Prop :=
  exists T t i j o items, it = (T, i, j) /\ tasks !! T = Some t /\ t_run t !! i = Some (RPar o items) /\ j < length items /\
    f = WPrefix (item_label o items j) (max_label (block_labels o items)).
