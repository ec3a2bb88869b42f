(** Under whose name output is shown, stated on how tasks were reached, without the
    runner's writers. *)
From Verif Require Import Base Types_Model Run_Model Run_Spec.
From Verif Require Import Label_Model.

(** The items of parallel blocks that a task reached by [s] runs in, innermost first:
    item [j] of run item [i] of a task. What a block does before it starts its items does
    not belong to one of them. *)
Fixpoint around (s : scope) : list (str * nat * nat) :=
  match s with
  | [] => []
  | FRef T [i; j] _ :: s' => (T, i, j) :: around s'
  | _ :: s' => around s'
  end.
(** The same for run item [pa] of a task [T] reached by [s]. *)
Definition item_around (T : str) (pa : list nat) (s : scope) : list (str * nat * nat) :=
  match pa with [i; j] => (T, i, j) :: around s | _ => around s end.

(** What a line carries tells the items it comes from: either the label of each one, or, in
    the TUI, the indices of all (outermost first) and the labels of those inside. Labels are
    as wide as the widest of the block; there is a TUI only on a terminal ([tui]). *)
Inductive addressed (tasks : taskmap) (tui : bool) : dest -> list (str * nat * nat) -> Prop :=
| ad_none : addressed tasks tui [] []
| ad_label T t i j o items d l : tasks !! T = Some t -> t_run t !! i = Some (RPar o items) -> j < length items ->
    addressed tasks tui d l -> addressed tasks tui (WPrefix (item_label o items j) (max_label (block_labels o items)) :: d) ((T, i, j) :: l)
| ad_key l : l <> [] -> tui = true -> addressed tasks tui [WKey (rev l.*2)] l.
