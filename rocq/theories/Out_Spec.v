(** What the output of parallel items should look like, without the writers. *)
From Verif Require Import Base Utf8_Model Utf8_Spec Out_Model.

(** The lines of a stream: cut at every newline; a last line without one counts
    unless it is empty. *)
Inductive lines : str -> list str -> Prop :=
| lines_none : lines [] []
| lines_last l : l <> [] -> nl ∉ l -> lines l [l]
| lines_more l s ls : nl ∉ l -> lines s ls -> lines (l ++ nl :: s) (l :: ls).

(** The bytes that may do harm in a terminal. *)
Definition harmless (c : ascii) : Prop := 32 <= code c \/ c = "009"%char.

(** Text lines of several writers, in the order they were written: who and what. *)
Definition rendered (pre : nat -> str) (log : list (nat * str)) : str :=
  concat (map (fun e => pre e.1 ++ e.2 ++ [nl]) log).
Definition of_writer (i : nat) (log : list (nat * str)) : list str := (List.filter (fun e => Nat.eqb e.1 i) log).*2.

(** The data of a sequence of calls. *)
Definition written (ops : list wop) : str := concat (map (fun o => match o with WWrite d => d | WFlush => [] end) ops).

(** ** Displays *)

(** What was sent after the last message of kind [P]; everything if there is none. *)
Fixpoint since (P : msg -> bool) (ms : list msg) : list msg :=
  match ms with
  | [] => []
  | m :: r => if existsb P r then since P r else if P m then r else ms
  end.
Definition registers (k : str) (m : msg) : bool := match m with MRegister key _ => bool_decide (key = k) | _ => false end.
(** [k] is announced anew, or gets a child. *)
Definition restarts (k : str) (m : msg) : bool :=
  match m with MRegister key p => bool_decide (key = k \/ (p = k /\ p <> [])) | _ => false end.
Fixpoint outputs (k : str) (ms : list msg) : list str :=
  match ms with
  | [] => []
  | MOutput key line :: r => if decide (key = k) then line :: outputs k r else outputs k r
  | _ :: r => outputs k r
  end.
Fixpoint last_done (k : str) (ms : list msg) : option (option str) :=
  match ms with
  | [] => None
  | MDone key e :: r => match last_done k r with Some x => Some x | None => if decide (key = k) then Some e else None end
  | _ :: r => last_done k r
  end.

(** [l] is the end of [all], [max] lines long if there are that many; [max = 0]
    means no bound. *)
Definition latest (max : nat) (all l : list str) : Prop :=
  exists dropped, all = dropped ++ l /\ (max = 0 -> dropped = []) /\ (max <> 0 -> length l <= max /\ (dropped <> [] -> length l = max)).

(** Keys of the tree: [k] is below [p]. *)
Definition below (p k : str) : Prop := exists r, k = p ++ "."%char :: r.

(** The items there are, after the messages [ms], if there were [P] before: a
    message announces one, or all those below an item go. *)
Definition belowb (p k : str) : bool := has_prefix (p ++ lit ".") k.
Fixpoint there (P : list str) (ms : list msg) : list str :=
  match ms with
  | [] => P
  | MRegister key _ :: r => there (key :: P) r
  | MClear a :: r => there (List.filter (fun k => negb (belowb a k)) P) r
  | _ :: r => there P r
  end.
(** Messages as blocks send them: a new item is announced below one that is there,
    under a key that is not taken. *)
Fixpoint orderly (P : list str) (ms : list msg) : Prop :=
  match ms with
  | [] => True
  | MRegister key parent :: r => (exists j, key = parent ++ lit "." ++ itoa j) /\ parent <> [] /\ parent ∈ P /\ key ∉ P /\ orderly (key :: P) r
  | MClear a :: r => orderly (List.filter (fun k => negb (belowb a k)) P) r
  | _ :: r => orderly P r
  end.
(** The message is about item [k]. *)
Definition concerns (k : str) (m : msg) : Prop :=
  match m with
  | MRegister key parent => key = k \/ parent = k
  | MStart key | MOutput key _ | MDone key _ => key = k
  | MClear a => a = k \/ below a k
  | MAllDone | MCtrlC => False
  end.

(** Orderly messages, and none about an item that is not there. *)
Fixpoint heard (P : list str) (ms : list msg) : Prop :=
  match ms with
  | [] => True
  | m :: r => match m with MStart k | MOutput k _ | MDone k _ | MClear k => k ∈ P | _ => True end /\ heard (there P [m]) r
  end.
