(** Blocks inside blocks: the writers of an inner block write to a writer of the outer
    one. internal/runner/writer.go 114-149 and parallel.go 113-166: [executeParallelInterleaved]
    makes one mutex, and for every item two [PrefixWriter]s whose destination is what
    the block was given: the terminal, or a writer of an item of the enclosing block.
    ([KeyLineWriter], writer.go 151-182, is a writer without prefix whose destination is
    the display.) *)
From Verif Require Import Base Utf8_Model Out_Model.

Inductive dest := Terminal (e : nat) | Into (j : nat).
(** A writer: its prefix and options (the field [w_to] is not used), where it writes,
    and the mutex it holds while it does. *)
Record nwriter := NWriter { n_as : writer; n_dest : dest; n_mutex : nat }.
(** Inner blocks are made after outer ones. *)
Definition nested (ws : list nwriter) : Prop :=
  forall i w j, ws !! i = Some w -> n_dest w = Into j -> exists w', ws !! j = Some w' /\ n_mutex w' < n_mutex w.

(** A call that has the mutex of writer [f_writer] and has still to send the lines
    [f_lines] to its destination. *)
Record frame := Frame { f_writer : nat; f_lines : list str }.
(** A goroutine: its calls to come, and the calls it is in, innermost first. *)
Record thread := Thread { t_calls : list (nat * wop); t_stack : list frame }.
Record nstate := NState { ns_mutex : nat -> option nat; ns_partial : nat -> str; ns_out : nat -> str; ns_threads : list thread }.
Definition upd {A} (f : nat -> A) (k : nat) (v : A) : nat -> A := fun x => if decide (x = k) then v else f x.

(** [PrefixWriter.Write] and [Flush] (writer.go 133-149): take the mutex, cut the lines;
    [Fprintln] makes one [Write] of each; give the mutex back. The terminal takes the
    bytes one by one. *)
Inductive nstep (a : ansi_lib) (ws : list nwriter) : nstate -> nstate -> Prop :=
| n_call m p d ts t i o cs w ls p' :
    ts !! t = Some (Thread ((i, o) :: cs) []) -> ws !! i = Some w -> m (n_mutex w) = None -> wcall (p i) o = (ls, p') ->
    nstep a ws (NState m p d ts)
      (NState (upd m (n_mutex w) (Some t)) (upd p i p') d (<[t := Thread cs [Frame i (map (line_bytes a (n_as w)) ls)]]> ts))
| n_inner m p d ts t cs i l pend rest w j w' ls p' :
    ts !! t = Some (Thread cs (Frame i (l :: pend) :: rest)) -> ws !! i = Some w -> n_dest w = Into j -> ws !! j = Some w' ->
    m (n_mutex w') = None -> wcall (p j) (WWrite l) = (ls, p') ->
    nstep a ws (NState m p d ts)
      (NState (upd m (n_mutex w') (Some t)) (upd p j p') d (<[t := Thread cs (Frame j (map (line_bytes a (n_as w')) ls) :: Frame i pend :: rest)]> ts))
| n_byte m p d ts t cs i c l pend rest w e :
    ts !! t = Some (Thread cs (Frame i ((c :: l) :: pend) :: rest)) -> ws !! i = Some w -> n_dest w = Terminal e ->
    nstep a ws (NState m p d ts) (NState m p (upd d e (d e ++ [c])) (<[t := Thread cs (Frame i (l :: pend) :: rest)]> ts))
| n_written m p d ts t cs i pend rest w e :
    ts !! t = Some (Thread cs (Frame i ([] :: pend) :: rest)) -> ws !! i = Some w -> n_dest w = Terminal e ->
    nstep a ws (NState m p d ts) (NState m p d (<[t := Thread cs (Frame i pend :: rest)]> ts))
| n_return m p d ts t cs i rest w :
    ts !! t = Some (Thread cs (Frame i [] :: rest)) -> ws !! i = Some w ->
    nstep a ws (NState m p d ts) (NState (upd m (n_mutex w) None) p d (<[t := Thread cs rest]> ts)).

Definition nstart (calls : list (list (nat * wop))) : nstate :=
  NState (fun _ => None) (fun _ => []) (fun _ => []) (map (fun cs => Thread cs []) calls).
Definition nfinished (s : nstate) : Prop := Forall (fun t => t_calls t = [] /\ t_stack t = []) (ns_threads s).
