(** Where colours are switched off, said about the Babfile. *)
From Verif Require Import Base Types_Model Run_Model Run_Spec Dest_Spec Alone_Spec.

(** The item is one of a block with [color: false]. *)
Definition plain_item (tasks : taskmap) (it : str * nat * nat) : Prop :=
  exists t o items, tasks !! it.1.1 = Some t /\ t_run t !! it.1.2 = Some (RPar o items) /\ q_color o = Some false.
(** One of the blocks around has it. *)
Definition colours_off (tasks : taskmap) (w : spot) : Prop := Exists (plain_item tasks) w.
