(** Keys that bab does not know: when two documents are the same but for such keys. *)
From Verif Require Import Base Types_Model Include_Model Doc_Model Doc_Spec.

(** The keys of a document, of a task, of a run item that is no parallel block and of a
    parallel block (docs; unmarshal.go 13-48). *)
Definition document_keys : list string := ["vars"; "env"; "silent"; "output"; "dir"; "tasks"; "includes"]%string.
Definition task_keys : list string :=
  ["desc"; "alias"; "aliases"; "vars"; "env"; "silent"; "output"; "dir"; "when"; "deps"; "run"]%string.
Definition item_keys : list string :=
  ["cmd"; "task"; "log"; "level"; "prompt"; "type"; "message"; "default"; "defaults"; "options"; "placeholder"; "validate"; "min"; "max"; "confirm";
   "dir"; "env"; "silent"; "output"; "platforms"; "when"; "label"; "parallel"]%string.
Definition block_keys : list string := ["parallel"; "mode"; "limit"; "color"; "silent"; "output"; "platforms"; "when"]%string.

(** The entries with a key of the list. *)
Definition known (keys : list string) (c : list (node * node)) : list (node * node) :=
  filter (fun kv => value_of kv.1 ∈ map lit keys) c.

(** The same entries, but for what [P] says about the values under a key. *)
Definition same_entries (P : str -> node -> node -> Prop) : list (node * node) -> list (node * node) -> Prop :=
  Forall2 (fun a b => a.1 = b.1 /\ (a.2 = b.2 \/ P (value_of a.1) a.2 b.2)).

(** Run items: the same known keys; in a parallel block the same keys, and items that
    are the same in this sense. *)
Definition same_plain (n n' : node) : Prop :=
  n = n' \/ exists l c c', n = YMap l c /\ n' = YMap l c' /\ ~ has c "parallel" /\ known item_keys c = known item_keys c'.
Definition same_item (n n' : node) : Prop :=
  same_plain n n' \/ exists l c c', n = YMap l c /\ n' = YMap l c' /\
    same_entries (fun k v v' => k = lit "parallel" /\ exists l' xs ys, v = YSeq l' xs /\ v' = YSeq l' ys /\ Forall2 same_plain xs ys) c c'.
Definition same_task (n n' : node) : Prop :=
  n = n' \/ exists l c c', n = YMap l c /\ n' = YMap l c' /\
    same_entries (fun k v v' => k = lit "run" /\ exists l' xs ys, v = YSeq l' xs /\ v' = YSeq l' ys /\ Forall2 same_item xs ys)
      (known task_keys c) (known task_keys c').
Definition same_document (n n' : node) : Prop :=
  exists l c c', n = YMap l c /\ n' = YMap l c' /\
    same_entries (fun k v v' => k = lit "tasks" /\ exists l' es es', v = YMap l' es /\ v' = YMap l' es' /\
        Forall2 (fun a b => a.1 = b.1 /\ same_task a.2 b.2) es es')
      (known document_keys c) (known document_keys c').
