(** When commands may run at the same time, said about the events of a run. *)
From Verif Require Import Base Types_Model Run_Model Run_Spec Dest_Spec.

(** The items of parallel blocks something belongs to, innermost first. *)
Notation spot := (list (str * nat * nat)).
Definition place (x : proc_info) : spot := item_around (x_task x) (x_path x) (x_scope x).
(** Two places are in different items of one parallel block: run item [i] of [T]. *)
Definition divided (v w : spot) : Prop :=
  exists T i j j' l1 l2 l, j <> j' /\ v = l1 ++ (T, i, j) :: l /\ w = l2 ++ (T, i, j') :: l.
(** The history [h] (newest first) has [ev] while the command [x] is running. *)
Definition during (h : hist) (x : proc_info) (ev : event) : Prop :=
  exists h3 h2 h1, h = h3 ++ ev :: h2 ++ OStart x true :: h1 /\ forall ok, OEnd (x_task x) (x_path x) ok ∉ h2.
(** Where it happens that a command is started, that bab writes a line or asks a question,
    that an item of a block ends; [F] tells what has happened before. *)
Definition spot_of (F : event -> Prop) (ev : event) (w : spot) : Prop :=
  match ev with
  | OStart y _ => w = place y
  | OHeader T _ _ | OSummary T _ _ _ => exists s, F (OClaim T s Fresh) /\ w = around s
  | OEcho T pa _ _ | OLog T pa _ _ _ | OPrompt T pa _ _ => exists s, F (OClaim T s Fresh) /\ w = item_around T pa s
  | OReturn T pa j _ => exists s i, pa = [i] /\ F (OClaim T s Fresh) /\ w = (T, i, j) :: around s
  | _ => False
  end.
Definition has_spot (ev : event) : bool :=
  match ev with
  | OStart _ _ | OHeader _ _ _ | OSummary _ _ _ _ | OEcho _ _ _ _ | OLog _ _ _ _ _ | OPrompt _ _ _ _ | OReturn _ _ _ _ => true
  | _ => false
  end.
