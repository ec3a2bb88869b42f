(** Data races on variable maps. The maps of Go must not be written while another
    goroutine reads or writes them: the run time then ends the program. *)
From Verif Require Import Base Types_Model Run_Model.

(** [e] is what the goroutine at [who] does next. A goroutine is found by the items of the
    blocks it is in. *)
Inductive pending : prog -> list nat -> eff -> Prop :=
| pend_here e k : pending (Vis e k) [] e
| pend_item t pa lim c chs log k j p who e :
    chs !! j = Some (Running, p) -> pending p who e -> pending (Fork t pa lim c chs log k) (j :: who) e.

Definition reads (e : eff) (l : nat) : Prop := match e with ERead _ _ l' => l' = l | _ => False end.
Definition writes (e : eff) (l : nat) : Prop := match e with EWrite _ _ l' _ _ => l' = l | _ => False end.

(** Two goroutines use the same map, one of them to change it. *)
Definition race (p : prog) : Prop :=
  exists who1 who2 e1 e2 l, who1 <> who2 /\ pending p who1 e1 /\ pending p who2 e2 /\ writes e1 l /\ (writes e2 l \/ reads e2 l).

(** [n] calls [m]: as dependency, as run item, or in a parallel block. *)
Inductive calls (tasks : taskmap) (n : str) : str -> Prop :=
| call_dep t d : tasks !! n = Some t -> d ∈ t_deps t -> calls tasks n d
| call_item t r : tasks !! n = Some t -> RTask r ∈ t_run t -> calls tasks n (r_task r)
| call_block t o items r : tasks !! n = Some t -> RPar o items ∈ t_run t -> RTask r ∈ items -> calls tasks n (r_task r).

(** No task that runs for [n] asks a question without having variables of its own. *)
Definition asks_own (tasks : taskmap) (n : str) : Prop :=
  forall m t, rtc (calls tasks) n m -> tasks !! m = Some t -> t_vars t = None -> forall q, RPrompt q ∉ t_run t.

(** So it is for the tasks of parallel blocks. *)
Definition blocks_ask_own (tasks : taskmap) : Prop :=
  forall n t o items r, tasks !! n = Some t -> RPar o items ∈ t_run t -> RTask r ∈ items -> asks_own tasks (r_task r).
