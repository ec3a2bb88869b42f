(** How the items of a parallel block are named: [ItemLabel] of
    internal/babfile/run_parallel.go, [NewPrefixWriter] of internal/runner/writer.go, the
    beginning of [executeParallel] in internal/runner/parallel.go and
    [RenderParallelDone] of internal/output/output.go. *)
From Verif Require Import Base Types_Model Path_Model Cond_Model Utf8_Model Out_Model.

(** run_parallel.go 77-83. *)
Definition truncate_runes (s : str) (max : nat) : str :=
  let r := runes s in
  if max <? length r then of_runes (take max r) else s.

(** run_parallel.go 58-75. *)
Definition item_label (o : par_opts) (items : list run_item) (index : nat) : str :=
  match q_labels o !! index with
  | Some (c :: l) => c :: l
  | _ => match items !! index with
         | None => []
         | Some (RTask t) => r_task t
         | Some (RCmd c) => truncate_runes (c_cmd c) 20
         | Some (RLog l) => truncate_runes (l_log l) 20
         | Some _ => []
         end
  end.

(** parallel.go 72-79. *)
Definition block_labels (o : par_opts) (items : list run_item) : list str := imap (fun i _ => item_label o items i) items.
Definition max_label (labels : list str) : nat := fold_left (fun m l => if m <? length l then length l else m) labels 0.

(** fmt's [%-*s]: spaces up to the width, counted in runes. *)
Definition pad_right (width : nat) (s : str) : str := s ++ repeat " "%char (width - length (runes s)).

(** writer.go 121-131: the prefix without what [Style.Render] adds (colours). *)
Definition label_prefix (label : str) (width : nat) : str := lit "[" ++ pad_right width label ++ lit "] ".

(** output.go 79-103, without colours. An error is nil, [context.Canceled], or another. *)
Inductive outcome := Fine | Cancelled | Failed.
Definition outcome_sign (e : outcome) : str :=
  match e with
  | Fine => bytes [226; 156; 147]
  | Cancelled => bytes [226; 138; 152]
  | Failed => bytes [226; 156; 151]
  end.
Definition render_done (labels : list str) (errs : list outcome) : str :=
  if negb (length errs =? length labels) then []
  else bytes [226; 151; 143] ++ lit " Parallel [" ++
       join_with (lit "  ") (imap (fun i l => l ++ lit " " ++ match errs !! i with Some e => outcome_sign e | None => outcome_sign Fine end) labels) ++ lit "]".
