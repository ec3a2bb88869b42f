(** What comes out of writers that write into each other, without steps and mutexes. *)
From Verif Require Import Base Utf8_Model Out_Model Out_Spec Nest_Model.

(** Who made a call of a writer: a goroutine itself, or another writer. *)
Inductive source := Direct (t : nat) | From (c : nat).
#[global] Instance source_eq_dec : EqDecision source.
Proof. solve_decision. Defined.
Notation history := (list (source * wop)).
(** The calls one source made, the lines all of them made. *)
Definition made_by (x : source) (h : history) : list wop := (List.filter (fun e => bool_decide (e.1 = x)) h).*2.
Definition lines_of (h : history) : list str := fst (wcalls [] h.*2).
Definition calls_to (i : nat) (cs : list (nat * wop)) : list wop := (List.filter (fun c => Nat.eqb c.1 i) cs).*2.

(** [hist] tells for every writer the calls it got in their order, [log] for every
    terminal the lines it got. *)
Record comes_out (a : ansi_lib) (ws : list nwriter) (calls : list (list (nat * wop))) (out : nat -> str)
    (hist : nat -> history) (log : nat -> list (nat * str)) : Prop := ComesOut {
  (** A goroutine's calls of a writer arrive in its order. *)
  co_direct : forall t cs i, calls !! t = Some cs -> made_by (Direct t) (hist i) = calls_to i cs;
  (** The lines of a writer arrive one by one, whole and in order, where it writes. *)
  co_into : forall i w j, ws !! i = Some w -> n_dest w = Into j -> made_by (From i) (hist j) = map (fun l => WWrite (line_bytes a (n_as w) l)) (lines_of (hist i));
  co_terminal : forall i w e, ws !! i = Some w -> n_dest w = Terminal e -> of_writer i (log e) = map (line_bytes a (n_as w)) (lines_of (hist i));
  (** Nothing else arrives. *)
  co_nothing_else : forall i x o, (x, o) ∈ hist i -> match x with Direct t => t < length calls | From c => exists w, ws !! c = Some w /\ n_dest w = Into i end;
  co_log : forall e i l, (i, l) ∈ log e -> exists w, ws !! i = Some w /\ n_dest w = Terminal e;
  co_out : forall e, out e = concat (log e).*2 }.
(** All writers that write to the same terminal belong to one block. *)
Definition one_block (ws : list nwriter) : Prop :=
  forall i j w w' e, ws !! i = Some w -> ws !! j = Some w' -> n_dest w = Terminal e -> n_dest w' = Terminal e -> n_mutex w = n_mutex w'.

(** ** The lines a reader sees *)

(** [i] writes to [j], at once or through others. *)
Inductive under (ws : list nwriter) : nat -> nat -> Prop :=
| under_self i : under ws i i
| under_more i c w j : under ws i c -> ws !! c = Some w -> n_dest w = Into j -> under ws i j.
Definition reaches (ws : list nwriter) (i e : nat) : Prop := exists j w, under ws i j /\ ws !! j = Some w /\ n_dest w = Terminal e.
(** The line [l] of writer [i] becomes [t] at the terminal: every writer on the way puts
    its prefix before it. *)
Inductive carries (a : ansi_lib) (ws : list nwriter) : nat -> str -> str -> Prop :=
| carries_end i w e l : ws !! i = Some w -> n_dest w = Terminal e -> carries a ws i l (w_prefix (n_as w) ++ shown a (w_stripped (n_as w)) l)
| carries_on i w j l t : ws !! i = Some w -> n_dest w = Into j -> carries a ws j (w_prefix (n_as w) ++ shown a (w_stripped (n_as w)) l) t -> carries a ws i l t.

(** Who writes: [src i] is the goroutine that copies the output of a command into writer
    [i], and the pieces it comes in; the others only pass lines on. *)
Definition plumbed (ws : list nwriter) (calls : list (list (nat * wop))) (src : nat -> option (nat * list str)) : Prop :=
  forall i w, ws !! i = Some w ->
    match src i with
    | Some (t, chunks) =>
        (forall c w', ws !! c = Some w' -> n_dest w' <> Into i) /\
        (exists cs, calls !! t = Some cs /\ calls_to i cs = map WWrite chunks ++ [WFlush]) /\
        (forall t' cs, calls !! t' = Some cs -> t' <> t -> calls_to i cs = [])
    | None => forall t cs, calls !! t = Some cs -> Forall (fun o => o = WFlush) (calls_to i cs)
    end.
(** Prefixes and lines without newline inside. *)
Definition flat (a : ansi_lib) (ws : list nwriter) : Prop :=
  forall i w, ws !! i = Some w -> nl ∉ w_prefix (n_as w) /\ forall l, nl ∉ l -> nl ∉ shown a (w_stripped (n_as w)) l.
