(** Things an item does one after another: internal/runner/runner.go 223-290 (the items of
    a task in a loop), 319-343 and 487-534 (the command is announced, then [cmd.Run], which
    comes back when both streams of the command are copied), parallel.go 127-166 (a block waits for its items, an item flushes its writers
    at the end). So some goroutines that write start only when others have ended. *)
From Verif Require Import Base Utf8_Model Out_Model Nest_Model.

Definition idle (s : nstate) (t : nat) : Prop := exists th, ns_threads s !! t = Some th /\ t_calls th = [] /\ t_stack th = [].
Definition moves (s s' : nstate) (t : nat) : Prop := exists th th', ns_threads s !! t = Some th /\ ns_threads s' !! t = Some th' /\ th <> th'.
(** The steps of [nstep] where nobody moves before those that come first have ended. *)
Definition ostep (a : ansi_lib) (ws : list nwriter) (before : nat -> nat -> Prop) (s s' : nstate) : Prop :=
  nstep a ws s s' /\ forall t t', moves s s' t -> before t' t -> idle s t'.
