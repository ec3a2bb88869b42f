(** What a search should find, without the code's two passes. *)
From Verif Require Import Base StrOrder Types_Model Pick_Model.
Local Open Scope Z_scope.

(** What is assumed of the fuzzy matcher: whether, where and how well a text matches
    does not depend on the others; matches come best first. *)
Record matcher (f : fuzzy) (mt : str -> str -> option (list nat * Z)) : Prop := {
  mt_once q l : NoDup (map (fun x => x.1.1) (fz_find f q l));
  mt_sound q l i idx sc : (i, idx, sc) ∈ fz_find f q l -> exists s, l !! i = Some s /\ mt q s = Some (idx, sc);
  mt_complete q l i s : l !! i = Some s -> is_Some (mt q s) -> exists idx sc, (i, idx, sc) ∈ fz_find f q l;
  mt_sorted q l : StronglySorted (fun x y => x.2 >= y.2) (fz_find f q l);
  mt_empty q : q <> [] -> mt q [] = None }.

(** How the query [q] finds a task: by exactly an alias, best; else by the alias
    that matches best; else by its name. *)
Inductive found (mt : str -> str -> option (list nat * Z)) (q : str) (t : task) : Z -> Prop :=
| found_exact : q ∈ get_all_aliases t -> found mt q t 1000
| found_alias a idx sc : q ∉ get_all_aliases t -> a ∈ get_all_aliases t -> mt q a = Some (idx, sc) ->
    (forall b idx' sc', b ∈ get_all_aliases t -> mt q b = Some (idx', sc') -> sc' <= sc) ->
    found mt q t (500 + Z.of_nat (length idx))
| found_name idx sc : q ∉ get_all_aliases t -> (forall a, a ∈ get_all_aliases t -> mt q a = None) ->
    mt q (t_name t) = Some (idx, sc) -> found mt q t sc.

(** Best first, equal ones by name. *)
Definition before (a b : task * Z) : Prop :=
  b.2 < a.2 \/ (a.2 = b.2 /\ str_le (t_name a.1) (t_name b.1)).
