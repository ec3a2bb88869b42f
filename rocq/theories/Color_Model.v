(** Which writers of parallel blocks remove the escape sequences of what they get. *)
From Verif Require Import Base Types_Model Run_Model Run_Spec Dest_Spec Alone_Spec Screen_Model.

(** parallel.go 81, 150-151, writer.go 121-131: the writers of an item remove them iff
    the block has [color: false] or was entered with [noColor]. That argument is passed
    along by [runTask], [executeTask] and [executeRunItem] (runner.go 135, 204;
    parallel.go 297); it is [no_color] of how the task was reached, which is field
    [ao_nocolor] of the invariant in Run_Proof. [h]: the run; a task is entered once. *)
Definition strip_in (tasks : taskmap) (h : hist) (w : spot) : bool :=
  match w with
  | [] => false
  | (T, i, _) :: _ =>
      match tasks !! T with
      | Some t => match t_run t !! i with
                  | Some (RPar o _) => no_color (scope_of h T) || negb (default true (q_color o))
                  | _ => false
                  end
      | None => false
      end
  end.
