(** When two YAML trees differ in nothing but the order of the keys of their
    mappings, and what it means that the library's [Decode] does not look at that
    order. *)
From Verif Require Import Base Types_Model Include_Model Doc_Model.

(** No key occurs twice in the mappings that are reordered. The nodes keep their
    lines: only their order changes. *)
Inductive reordered : node -> node -> Prop :=
| ro_same n : reordered n n
| ro_seq l xs ys : Forall2 reordered xs ys -> reordered (YSeq l xs) (YSeq l ys)
| ro_map l c d e : NoDup (map (fun kv => value_of kv.1) c) ->
    Forall2 (fun a b => a.1 = b.1 /\ reordered a.2 b.2) c d -> d ≡ₚ e -> reordered (YMap l c) (YMap l e)
| ro_alias l a t t' : reordered t t' -> reordered (YAlias l a t) (YAlias l a t').

(** What the library makes of a node does not depend on the order of keys. *)
Record order_blind (Y : yaml) : Prop := {
  ob_strs n n' : reordered n n' -> y_strs Y n = y_strs Y n';
  ob_bool n n' : reordered n n' -> y_bool Y n = y_bool Y n';
  ob_int n n' : reordered n n' -> y_int Y n = y_int Y n';
  ob_include n n' : reordered n n' -> y_include Y n = y_include Y n' }.

(** Two documents: both unreadable, both empty, or trees that differ in the order. *)
Definition reordered_doc (d d' : ydoc) : Prop :=
  match d, d' with
  | YSyntax, YSyntax | YEmpty, YEmpty => True
  | YDoc n, YDoc n' => reordered n n'
  | _, _ => False
  end.
